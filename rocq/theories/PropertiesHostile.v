(** C116: what the loader does not check. *)
From Coq Require Import ZArith List Bool Lia ZifyBool String Sorted.
From Verif Require Import Base BaseFacts F32 Instr InstrSpec Program ProgramSpec VM AbsHeap Gc Host Demo VmSpec VmFacts RunFacts PropertiesRun PropertiesImage.
Import ListNotations.
Open Scope list_scope.
Open Scope Z_scope.

(** ** C116 Finding: a program loaded from an image can read anywhere

    An instruction is fetched from any address: there is no check that the
    program counter is inside the code. *)
Theorem C116_fetch : forall P H (ops : hops P H) prog s, 4 < zlen (p_code prog) -> ~ 0 <= pc s < zlen (p_code prog) ->
  step_imp ops prog s = Stuck SOob.
Proof.
  intros P H ops prog s L N. unfold step_imp, fetch, mbind, mget, lift, code. replace (4 <? zlen (p_code prog)) with true by lia. cbn [assert_].
  change (t_pc (m_cur s)) with (pc s). destruct (znth (p_code prog) (pc s)) as [b|] eqn:E; [|reflexivity]. apply znth_some in E. lia.
Qed.
(** Jumps go where they say. *)
Theorem C116_jump : forall P H (ops : hops P H) prog s t, quiet s -> at_ins prog (pc s) (I1 INS_JMP t) -> ~ 0 <= t < zlen (p_code prog) ->
  exists s', step_imp ops prog s = Ok (tt, s') /\ step_imp ops prog s' = Stuck SOob.
Proof.
  intros P H ops prog s t Q A N. exists (after s t (stack s) (m_heap s)). split; [|apply C116_fetch; [apply A|exact N]].
  assert (Q' : quiet (with_cur s (t_set_pc (m_cur s) t))) by exact Q.
  rewrite (step_quiet ops prog s _ tt (with_cur s (t_set_pc (m_cur s) t)) A Q); [|cbn [ins_op do_ins]; unfold mbind; rewrite (operand1_at _ _ _ _ A); reflexivity|exact Q'].
  destruct s as [h g w pre [] post]. reflexivity.
Qed.
(** The tables of strings and syscalls are read wherever the operand says. *)
Theorem C116_string : forall P H (ops : hops P H) prog s o, at_ins prog (pc s) (I1 INS_NEW_STR o) -> o < 0 ->
  step_imp ops prog s = Stuck SOob.
Proof.
  intros P H ops prog s o A N. apply (step_stuck _ _ _ _ _ A). cbn [ins_op do_ins]. unfold mbind at 1. rewrite (operand1_at _ _ _ _ A).
  unfold mbind, lift. pose proof (zlen_nonneg (p_strings prog)). replace (o <? zlen (p_strings prog)) with true by lia. cbn [assert_].
  destruct (znth (p_strings prog) o) eqn:E; [|reflexivity]. apply znth_some in E. lia.
Qed.

(** Every code loads, with any entry point; calling the function then fetches from
    outside of the code.  [code] is longer than 4 bytes only because the vm asserts
    that when it fetches. *)
Theorem C116_image : forall code t old, bytes_ok code -> count_ok code -> 4 < zlen code -> in_i32 t = true -> ~ 0 <= t < zlen code ->
  exists image q f, serial_load old image = Ok (true, Some q) /\ p_code q = code /\ function_find q (bs "main") = Some f /\ num_args f = 0 /\
    forall cap k policy fuel w, host_gc q (S fuel) [(Cfg cap (S k) policy, HCallOnce f [])] (vm_start 0 w) = Stuck SOob.
Proof.
  intros code t old B C L I N. set (f := Func (bs "main") t t [] []). set (p := Prog [] [] [f] code [] []).
  assert (W : prog_wf p).
  { unfold prog_wf, p. cbn [p_syscalls p_functions p_code p_lines p_strings].
    assert (E : forall A (x : list A), (List.length x <= 1)%nat -> count_ok x) by (intros A x X; unfold count_ok, zlen, i32_max; lia).
    repeat match goal with |- _ /\ _ => split end; try (constructor; fail); try (apply E; cbn; lia); auto.
    constructor; [|constructor]. unfold func_wf, f. cbn [f_name f_start f_end f_locals f_args].
    repeat match goal with |- _ /\ _ => split end; try (constructor; fail); try (apply E; cbn; lia); auto.
    repeat constructor; vm_compute; try discriminate; reflexivity. }
  destruct (C05_image_round_trip p old W) as (q & Lq & _ & Fq & Cq & _). exists (serial_save p), q, f.
  split; [exact Lq|]. split; [exact Cq|]. split; [unfold function_find; rewrite Fq; reflexivity|]. split; [reflexivity|].
  intros cap k policy fuel w. unfold host_gc. cbn [map host_run fst snd host_step new_args bind]. unfold cfg_ops. cbn [c_cap c_fuel c_policy].
  set (ops := gc_ops_with cap (S k) policy). set (s := Mst (Gc.flip empty_heap) [] w [] (prepared fresh_thread f []) [] : mst ptr heap).
  assert (X : call_once ops q (S fuel) (with_heap (vm_start 0 w) (vm_heap (vm_start 0 w))) f [] =
    bind (call_loop ops q (S fuel) s) (fun s' => match t_err (m_cur s') with
      | Some e => Ok ((false, h_null ops, Some e), join s') | None => bind (return_value ops (m_cur s')) (fun p => Ok ((true, p, None), join s')) end)) by reflexivity.
  rewrite X. cbn [call_loop]. change (t_fin (m_cur s) || negb (no_error (m_cur s))) with false. cbv iota.
  assert (Cy : exists m, Z.to_nat (128 * 1024) = S m) by (exists (Z.to_nat 131071); lia). destruct Cy as [m ->].
  assert (R : resume ops q (S m) s = Stuck SOob); [|rewrite R; reflexivity].
  unfold resume. unfold mbind at 1, mget at 1. change (t_fin (m_cur s)) with false. cbv iota. unfold mbind at 1. cbn [mod_cur]. unfold mbind.
  cbn [resume_loop]. unfold mbind, tick_gc. destruct (h_should ops _).
  - change (gc_collect ops _) with (@Ok (unit * mst ptr heap) (tt, Mst (Gc.flip (Gc.flip empty_heap)) [] w [] (t_set_hal (prepared fresh_thread f []) false) [])).
    cbv iota beta. rewrite C116_fetch; [reflexivity|now rewrite Cq|rewrite Cq; exact N].
  - rewrite C116_fetch; [reflexivity|now rewrite Cq|rewrite Cq; exact N].
Qed.

(** A jump over the end of its code. *)
Definition wild_prog : program_t := Prog [] [] [Func (bs "main") 0 5 [] []] (asm [I1 INS_JMP 1000]) [] [].
Definition wild_state : mst ptr heap := Mst empty_heap [] world0 [] (prepared fresh_thread (Func (bs "main") 0 5 [] []) []) [].
Example C116_ex : prog_wf wild_prog /\ at_ins wild_prog (pc wild_state) (I1 INS_JMP 1000) /\ ~ 0 <= 1000 < zlen (p_code wild_prog) /\
  host_gc wild_prog 3 [(Cfg 4096 5 (fun _ => false), HCallOnce (Func (bs "main") 0 5 [] []) [])] (vm_start 0 world0) = Stuck SOob /\
  bytes_ok (asm [I1 INS_RET 0]) /\ 4 < zlen (asm [I1 INS_RET 0]).
Proof.
  split.
  { unfold prog_wf, wild_prog. cbn [p_syscalls p_functions p_code p_lines p_strings]. unfold func_wf. cbn [f_name f_start f_end f_locals f_args].
    repeat match goal with |- _ /\ _ => split | |- Forall _ _ => constructor | |- StronglySorted _ _ => constructor | |- lines_sorted _ => constructor
      | |- str_wf _ => split | |- count_ok _ => vm_compute; discriminate end; vm_compute; auto; repeat constructor; auto; try discriminate. }
  split; [split; [reflexivity|]; split; [vm_compute; discriminate|]; split; [vm_compute; repeat split; auto; discriminate|]; exists (asm [I1 INS_JMP 1000]); split; reflexivity|]. split; [vm_compute; intros [_ X]; discriminate X|].
  split; [vm_compute; reflexivity|]. split; [|reflexivity]. vm_compute. repeat constructor; discriminate.
Qed.

Print Assumptions C116_fetch.
Print Assumptions C116_jump.
Print Assumptions C116_string.
Print Assumptions C116_image.
