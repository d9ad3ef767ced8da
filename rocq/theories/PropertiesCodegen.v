(** Properties of the code generator: C38 - C42.  The vocabulary is that of
    CgSpec.v; the meaning of source programs is SrcSem.v. *)
From Coq Require Import ZArith List Bool Lia String.
From Verif Require Import Base BaseFacts F32 Instr InstrSpec Program VM AbsHeap VmSpec Gc GcSpec Host Demo Source Lexer Ast Parser
  Sema SemaSpec Optimize Codegen Build SrcSem BuildSpec CgSpec CgCode CgLayout CgSlots CgStep CgSim CgRun CgFlow CgWell ParseFine
  PropertiesOpt.
Import ListNotations.
Open Scope list_scope.
Open Scope Z_scope.

(** ** C38: expressions

    [s] and [s'] are the states of the generator before and after the expression,
    whose code is in the program [q] (the generated [p], with its syscalls bound
    by the host).  A machine about to run that code, in an activation whose
    variables are those of [r], gets to the end of it with the value of the
    expression on top of an otherwise unchanged stack, and with the arrays,
    globals, world and new threads of the source state; or, if the source raises
    an error, it stops with that error.  The exception is a stack that outgrows
    32 bits. *)
Theorem C38_expression : forall items n p q, generate items n = Ok p -> program_ok items n -> fits p -> bound p q ->
  forall fuel e s s' r locals rest fr frs tmps extra others st t,
  Forall (declared items) (inside e) -> Forall machine_literal (inside e) ->
  gen_expr (slots_of items n) e s = Ok s' -> loaded q s s' ->
  globals_of items st -> activation (slots_of items n) r locals rest fr ->
  holds st extra others t ->
  running (pos s) (stack_of tmps r locals rest) (fr :: frs) t ->
  match run_expr items (entry items q) (sys_index q) (vm_sys q) fuel r e st with
  | Done (v, st') =>
      reaches q (fun t' => holds st' extra others t' /\
        running (pos s') (v :: stack_of tmps r locals rest) (fr :: frs) t') t
  | Error x st' => reaches q (fun t' => holds st' extra others t' /\ failed x t') t
  | Undefined | Timeout => True
  end.
Proof.
  intros items n p q G P F B fuel e s s' r locals rest fr frs tmps extra others st t D M E L GO A H R.
  pose proof (run_expression items n p q G P F B extra others fuel e s s' r locals rest fr frs tmps st t D M E L GO A H R) as X.
  destruct (run_expr _ _ _ _ fuel r e st) as [[v st']|x st'| |]; auto. apply X.
Qed.

(** ** C39: functions

    A machine at the first instruction of a function, with its arguments on the
    stack and a frame for the call, returns from it: the arguments are gone, the
    result of the source function is on the stack, the frame is popped and
    execution goes on at its return address. *)
Theorem C39_function : forall items n p q, generate items n = Ok p -> program_ok items n -> fits p -> bound p q ->
  forall fuel f args body vs rest fr frs extra others st t,
  In (f, args, body) (functs items) -> globals_of items st -> fr_sp fr = zlen rest + zlen vs ->
  holds st extra others t -> running (address q (fd_name f)) (rev vs ++ rest) (fr :: frs) t ->
  match run_call items (entry items q) (sys_index q) (vm_sys q) fuel (f, args, body) vs st with
  | Done (v, st') => reaches q (fun t' => holds st' extra others t' /\ returned fr v rest frs t') t
  | Error x st' => reaches q (fun t' => holds st' extra others t' /\ failed x t') t
  | Undefined | Timeout => True
  end.
Proof.
  intros items n p q G P F B fuel f args body vs rest fr frs extra others st t I GO S H R.
  pose proof (run_function items n p q G P F B extra others fuel f args body vs st rest fr frs t I GO S H R) as X.
  destruct (run_call _ _ _ _ fuel (f, args, body) vs st) as [[v st']|x st'| |]; auto. apply X.
Qed.

(** The call instruction of another function [fr0 :: frs]: it goes on after the
    instruction, in the same frame. *)
Theorem C39_call : forall items n p q, generate items n = Ok p -> program_ok items n -> fits p -> bound p q ->
  forall fuel f args body vs rest fr0 frs extra others st t a k,
  In (f, args, body) (functs items) -> globals_of items st ->
  at_ins q a (I2 INS_CALL k (address q (fd_name f))) ->
  holds st extra others t -> running a (rev vs ++ rest) (fr0 :: frs) t ->
  match run_call items (entry items q) (sys_index q) (vm_sys q) fuel (f, args, body) vs st with
  | Done (v, st') => reaches q (fun t' => holds st' extra others t' /\ running (a + 9) (v :: rest) (fr0 :: frs) t') t
  | Error x st' => reaches q (fun t' => holds st' extra others t' /\ failed x t') t
  | Undefined | Timeout => True
  end.
Proof.
  intros items n p q G P F B fuel f args body vs rest fr0 frs extra others st t a k I GO A H R.
  destruct (st_call q (s_heap st) (map snd (s_glob st) ++ extra) (s_world st) (s_new st) others a (rev vs ++ rest) (fr0 :: frs)
              k (address q (fd_name f)) A t (core_of _ _ _ _ _ _ _ H R)) as (t1 & S1 & E1).
  set (fr := Frame (zlen (rev vs ++ rest)) (a + 9) (address q (fd_name f)) false) in *.
  assert (H1 : holds st extra others t1) by (destruct t1 as [? ? ? ? [] ?]; inversion E1; subst; constructor; reflexivity).
  assert (R1 : running (address q (fd_name f)) (rev vs ++ rest) (fr :: fr0 :: frs) t1)
    by (destruct t1 as [? ? ? ? [] ?]; inversion E1; subst; constructor; reflexivity).
  assert (SP : fr_sp fr = zlen rest + zlen vs) by (cbn [fr fr_sp]; rewrite zlen_app, zlen_rev; lia).
  assert (T : forall Q, reaches q Q t1 -> reaches q Q t).
  { intros Q (t2 & S2 & D). exists t2. split; [|exact D]. eapply steps_more; [apply (ru_fin _ _ _ _ R)|exact S1|exact S2]. }
  pose proof (run_function items n p q G P F B extra others fuel f args body vs st rest fr (fr0 :: frs) t1 I GO SP H1 R1) as X.
  destruct (run_call _ _ _ _ fuel (f, args, body) vs st) as [[v st']|x st'| |]; auto.
  destruct X as [_ X]. apply T. eapply reaches_weak; [|exact X]. intros t2 [H2 [? ? ? ? ?]]. split; [exact H2|]. constructor; assumption.
Qed.

(** The initialisation of the globals.  [vm_t::call_init] runs it in a machine
    that may hold globals of an earlier run; if the program has no global of its
    own they stay. *)
Theorem C39_init : forall items n p q, generate items n = Ok p -> program_ok items n -> fits p -> bound p q ->
  forall fuel rest fr frs st t,
  fr_sp fr = zlen rest ->
  m_heap t = s_heap st -> m_world t = s_world st -> m_pre t = s_new st ->
  running (address q init_name) rest (fr :: frs) t ->
  let left := if zlen (global_vars items) =? 0 then m_glob t else [] in
  match initial items (entry items q) (sys_index q) (vm_sys q) fuel st with
  | Done st' => globals_of items st' /\
      reaches q (fun t' => holds st' left (m_post t) t' /\ returned fr (AS (SInt 0)) rest frs t') t
  | Error x st' => reaches q (fun t' => holds st' left (m_post t) t' /\ failed x t') t
  | Undefined | Timeout => True
  end.
Proof.
  intros items n p q G P F B fuel rest fr frs st t S H W N R left.
  exact (run_init items n p q G P F B (m_post t) fuel st rest fr frs t S H W N eq_refl R).
Qed.

(** ** C40: jumps and calls

    Decoding a function from its first instruction, one never leaves it before
    its end, every jump goes to an instruction of the same function and every
    call or function value to the first instruction of a function. *)
Theorem C40_targets : forall items n p, generate items n = Ok p -> program_ok items n -> fits p ->
  forall f a, In f (p_functions p) -> starts p (f_start f) a -> a < f_end f ->
  exists x, at_ins p a x /\ a + ins_len (ins_op x) <= f_end f /\
    (forall t, jump_target x = Some t -> f_start f <= t < f_end f /\ starts p (f_start f) t) /\
    (forall t, function_operand x = Some t -> exists g, In g (p_functions p) /\ f_start g = t).
Proof. intros. eapply flow; eassumption. Qed.
(** The functions occupy disjoint, non-empty ranges of the code. *)
Theorem C40_ranges : forall items n p, generate items n = Ok p -> program_ok items n ->
  forall f, In f (p_functions p) -> 0 <= f_start f < f_end f /\ f_end f <= zlen (p_code p) /\
    forall g, In g (p_functions p) -> f = g \/ f_end f <= f_start g \/ f_end g <= f_start f.
Proof.
  intros items n p G P f I. destruct (ranges items n p G P f I) as [A B]. split; [exact A|]. split; [exact B|].
  intros g J. eapply ranges_apart; eassumption.
Qed.

(** ** C41: slots of locals

    A local variable is a declaration of a function's body that is not a
    constant.  [x] is any statement of the body and [l] the locals in scope
    there. *)
Definition local (d : vdecl) : Prop := vd_kind d = KLocal /\ vd_const d = false.
Definition slot (items : list ritem) (n : nat) (d : vdecl) : Z := assoc (slots_of items n) (vd_id d).
Definition stack_size (items : list ritem) (n : nat) (f : fdecl) : Z := assoc (snd (offsets (add_init items n))) (fd_id f).
Lemma local_is d : local d -> local_slot d = true.
Proof. intros [K C]. unfold local_slot. now rewrite K, C. Qed.
Theorem C41_different : forall items n, program_ok items n -> forall f args body lend, In (RFunc f args body lend) items ->
  forall x l d e, scope body [] x l -> In d l -> In e l -> local d -> local e ->
  slot items n d = slot items n e -> d = e.
Proof. intros. eapply fs_apart; eauto using local_is. Qed.
Theorem C41_range : forall items n, program_ok items n -> forall f args body lend, In (RFunc f args body lend) items ->
  forall d, In d (decls_block body) -> local d -> 0 <= slot items n d < stack_size items n f.
Proof. intros. eapply fs_range; eauto using local_is. Qed.
Theorem C41_arguments : forall items n, program_ok items n -> forall f args body lend, In (RFunc f args body lend) items ->
  forall i d, znth args i = Some d -> slot items n d = i - zlen args.
Proof. intros. eapply fs_args; eassumption. Qed.
(** The slots are those the generated program tells the debugger, and its code
    reserves that many. *)
Theorem C41_in_the_program : forall items n p, generate items n = Ok p -> program_ok items n -> fits p ->
  forall f args body lend, In (RFunc f args body lend) items ->
  exists g, In g (p_functions p) /\ f_name g = fd_name f /\
    f_args g = map (fun d => Ident (vd_name d) (slot items n d)) args /\
    f_locals g = map (fun d => Ident (vd_name d) (slot items n d)) (decls_block body) /\
    (0 < stack_size items n f -> at_ins p (f_start g) (I1 INS_LOCALS (stack_size items n f))).
Proof. intros. eapply fs_function; eassumption. Qed.

(** ** Examples

    A program with a call, a loop, nested blocks and a global. *)
Definition cg_text : string := "var g = 2 + 3
function f(a, b)
  var s = 0
  var i
  for (i = 0 to a)
    if (i < 2)
      var t = i * g
      s = s + t
    else
      var u = 1
      var w = b
      s = s + u + w
    end
  end
  return s
end
function nothing()
end
function bare()
  return
end
function main()
  return f(4, 10) * 2
end
"%string.
Definition cg_items : list ritem := fst (text_tree cg_text).
Definition cg_next : nat := snd (text_tree cg_text).
Definition cg_prog : program_t := match generate cg_items cg_next with Ok p => p | _ => Prog [] [] [] [] [] [] end.
Lemma cg_generate : generate cg_items cg_next = Ok cg_prog.
Proof. vm_compute. reflexivity. Qed.
Definition fitsb (p : program_t) : bool :=
  (zlen (p_code p) <=? i32_max) && (zlen (p_strings p) <=? i32_max) && (zlen (p_syscalls p) <=? i32_max) &&
  (zlen (p_globals p) <=? i32_max) && forallb (fun f => zlen (f_args f) + zlen (f_locals f) <=? i32_max) (p_functions p).
Lemma fitsb_ok p : fitsb p = true -> fits p.
Proof.
  unfold fitsb. intros H. repeat (apply andb_prop in H; destruct H as [H ?]). constructor; try (apply Z.leb_le; assumption).
  apply Forall_forall. intros f I. apply Z.leb_le. match goal with F : forallb _ _ = true |- _ => exact (proj1 (forallb_forall _ _) F f I) end.
Qed.
Lemma cg_fits : fits cg_prog.
Proof. apply fitsb_ok. vm_compute. reflexivity. Qed.
(** It is what the analyser makes of a text, so the hypotheses on programs hold. *)
Lemma text_tree_ok s items n : text_tree s = (items, n) -> n <> 0%nat -> program_ok items n.
Proof.
  unfold text_tree. intros E N.
  destruct (parse_sources 5 (fun _ => None) (snd (sm_load_from_string [] (bs s))) 0 [] []) as [[its m]|x l|x] eqn:P; cbn [bind] in E;
    try (inversion E; subst; congruence).
  destruct (run_sema Z.of_nat (map CItem its)) as [[r k]|x l|x] eqn:R; inversion E; subst; try congruence.
  eapply run_sema_ok; [|exact R]. apply Forall_forall. intros c I. apply in_map_iff in I. destruct I as (x & <- & I).
  apply (proj1 (Forall_forall _ _) (parse_sources_fine _ _ _ _ _ _ _ _ (Forall_nil _) (Forall_nil _) P) _ I).
Qed.
Lemma cg_ok : program_ok cg_items cg_next.
Proof. apply (text_tree_ok cg_text); [apply surjective_pairing|vm_compute; discriminate]. Qed.

Definition cg_main : fdecl * list vdecl * list rstmt :=
  match functs cg_items with [_; _; _; x] => x | _ => (FDecl 0 [] None false false 0, [], []) end.
Definition cg_expr : rexpr := match snd cg_main with [RReturn _ (Some e)] => e | _ => RNone no_line end.
(** The generator just before that expression. *)
Definition cg_before : cg :=
  let items := add_init cg_items cg_next in
  let (m, sizes) := offsets items in
  match walk (gen_item m sizes (zlen (filter is_var_global items))) (firstn 4 items)
          (Cg [] [] (flat_map (function_of m) items) [] [] [] [] []) with
  | Ok s => s | _ => Cg [] [] [] [] [] [] [] []
  end.
Definition cg_after : cg :=
  match gen_expr (slots_of cg_items cg_next) cg_expr cg_before with Ok s => s | _ => cg_before end.
Definition cg_state : sst := St [] (map (fun x => (fst x, AS (SInt 5))) (global_vars cg_items)) world0 [].
Definition cg_frame : frame := Frame 1 77 (address cg_prog (bs "main")) false.
Definition cg_machine (a : Z) (stk : list aval) (frs : list frame) : machine :=
  Mst [] [AS (SInt 5)] world0 [] (Thread a stk frs None false false 0 0 no_line []) [].
Example C38_ex :
  program_ok cg_items cg_next /\ fits cg_prog /\ bound cg_prog cg_prog /\
  Forall (declared cg_items) (inside cg_expr) /\ Forall machine_literal (inside cg_expr) /\
  gen_expr (slots_of cg_items cg_next) cg_expr cg_before = Ok cg_after /\
  loaded cg_prog cg_before cg_after /\ globals_of cg_items cg_state /\
  activation (slots_of cg_items cg_next) (Env [] []) [] [ANone] cg_frame /\
  holds cg_state [] [] (cg_machine (pos cg_before) [ANone] [cg_frame]) /\
  run_expr cg_items (entry cg_items cg_prog) (sys_index cg_prog) (vm_sys cg_prog) 30 (Env [] []) cg_expr cg_state
    = Done (AS (SInt 54), cg_state).
Proof.
  split; [exact cg_ok|]. split; [exact cg_fits|]. split; [apply bound_self|].
  assert (D : forall e, In e (inside cg_expr) -> In e (program_exprs cg_items)) by (intros e I; vm_compute in I |- *; tauto).
  split; [apply Forall_forall; intros e I; exact (proj1 (Forall_forall _ _) (po_declared _ _ cg_ok) e (D e I))|].
  split; [apply Forall_forall; intros e I; exact (proj1 (Forall_forall _ _) (po_literals _ _ cg_ok) e (D e I))|].
  split; [vm_compute; reflexivity|].
  split. { constructor.
    - eexists _, _. split; [|split]; [vm_compute; reflexivity..].
    - eexists. vm_compute. reflexivity.
    - eexists. vm_compute. reflexivity. }
  split; [reflexivity|]. split; [constructor; try reflexivity; intros i id v Z; [|]; destruct i; discriminate Z|].
  split; [constructor; reflexivity|]. vm_compute; reflexivity.
Qed.
Example C39_ex :
  In cg_main (functs cg_items) /\ fd_name (fst (fst cg_main)) = bs "main" /\
  run_call cg_items (entry cg_items cg_prog) (sys_index cg_prog) (vm_sys cg_prog) 30 cg_main [] cg_state
    = Done (AS (SInt 54), cg_state) /\
  (exists f args body a, In (f, args, body) (functs cg_items) /\
     at_ins cg_prog a (I2 INS_CALL 2 (address cg_prog (fd_name f))) /\
     run_call cg_items (entry cg_items cg_prog) (sys_index cg_prog) (vm_sys cg_prog) 30 (f, args, body)
       [AS (SInt 4); AS (SInt 10)] cg_state = Done (AS (SInt 27), cg_state)) /\
  initial cg_items (entry cg_items cg_prog) (sys_index cg_prog) (vm_sys cg_prog) 30 (St [] [] world0 []) = Done cg_state /\
  main_result false cg_text = Ok [SeenFlag true; SeenCall true (ShScalar (SInt 54)) None] /\
  (exists x y, In x (functs cg_items) /\ In y (functs cg_items) /\
     run_call cg_items (entry cg_items cg_prog) (sys_index cg_prog) (vm_sys cg_prog) 30 x [] cg_state = Done (AS (SInt 0), cg_state) /\
     run_call cg_items (entry cg_items cg_prog) (sys_index cg_prog) (vm_sys cg_prog) 30 y [] cg_state = Done (ANone, cg_state)).
Proof.
  split; [vm_compute; tauto|]. split; [vm_compute; reflexivity|]. split; [vm_compute; reflexivity|].
  split. { eexists _, _, _, (pos cg_before + 10). split; [vm_compute; left; reflexivity|]. split; [|vm_compute; reflexivity].
    split; [vm_compute; reflexivity|]. split; [vm_compute; discriminate|]. split; [vm_compute; repeat split; discriminate|].
    eexists. split; vm_compute; reflexivity. }
  split; [vm_compute; reflexivity|]. split; [vm_compute; reflexivity|].
  eexists _, _. split; [vm_compute; right; left; reflexivity|]. split; [vm_compute; right; right; left; reflexivity|]. split; vm_compute; reflexivity.
Qed.
Definition cg_f : fdecl * list vdecl * list rstmt :=
  match functs cg_items with x :: _ => x | _ => cg_main end.
(** The sixth instruction of [f], which starts at address 0, is the jump to the
    condition of its loop. *)
Lemma at_ins_b p a x b : 4 < zlen (p_code p) -> 0 <= a -> ins_wf x -> emit x = Ok b ->
  zfirstn (zlen b) (zskipn a (p_code p)) = b -> at_ins p a x.
Proof. intros. repeat split; eauto. Qed.
Ltac at_ins_c := eapply at_ins_b; [vm_compute; reflexivity|vm_compute; discriminate|
  vm_compute; repeat split|vm_compute; reflexivity|vm_compute; reflexivity].
Example C40_ex :
  exists f, In f (p_functions cg_prog) /\ f_name f = bs "f" /\ f_start f = 0 /\
    starts cg_prog 0 25 /\ at_ins cg_prog 25 (I1 INS_JMP 141) /\ 141 < f_end f.
Proof.
  eexists. split; [vm_compute; left; reflexivity|]. split; [reflexivity|]. split; [reflexivity|].
  split; [|split; [at_ins_c|vm_compute; reflexivity]].
  apply (starts_next _ _ 20 (I1 INS_SETV 1)); [|at_ins_c]. apply (starts_next _ _ 15 (I1 INS_NEW_INT 0)); [|at_ins_c].
  apply (starts_next _ _ 10 (I1 INS_SETV 0)); [|at_ins_c]. apply (starts_next _ _ 5 (I1 INS_NEW_INT 0)); [|at_ins_c].
  apply (starts_next _ _ 0 (I1 INS_LOCALS 4)); [|at_ins_c]. apply starts_here.
Qed.
(** Slots of [s], [i], [t], [u] and [w], and the locals in scope at the last
    statement of the else branch. *)
Definition scope_ex : Prop :=
  match cg_f with
  | (f, [a; b], [RVar s _ as x1; RVar i _; RFor _ _ _ _ _ [RIf _ _ _ (Some [RVar u _; RVar w _; x])]; _] as body) =>
      scope body [] x [w; u; i; s] /\ Forall local [w; u; i; s] /\
      map (slot cg_items cg_next) [a; b; w; u; i; s] = [-2; -1; 3; 2; 1; 0] /\
      map (slot cg_items cg_next) (decls_block body) = [0; 1; 2; 2; 3] /\
      stack_size cg_items cg_next f = 4
  | _ => False
  end.
Example C41_ex : scope_ex.
Proof.
  unfold scope_ex. remember cg_f as x eqn:E. vm_compute in E. subst x.
  split; [|split; [repeat constructor|split; [vm_compute; reflexivity|split; vm_compute; reflexivity]]].
  apply sc_next, sc_next, sc_for. cbn [declares app]. apply sc_else. apply sc_next, sc_next, sc_here.
Qed.
Print Assumptions C38_expression.
Print Assumptions C39_function.
Print Assumptions C39_call.
Print Assumptions C39_init.
Print Assumptions C40_targets.
Print Assumptions C40_ranges.
Print Assumptions C41_different.
Print Assumptions C41_range.
Print Assumptions C41_arguments.
Print Assumptions C41_in_the_program.

(** ** C42: a variable that was never given a value

    [b] takes over the slot of [a], which is no longer in scope; the source has
    no value for [b]. *)
Definition stale_text : string := "function main()
  if (1)
    var a = 7
  end
  var b
  return b
end
"%string.
(** The same without the block: [b] is none. *)
Definition fresh_text : string := "function main()
  var b
  return b
end
"%string.
Theorem C42_stale_value :
  main_result false stale_text = Ok [SeenFlag true; SeenCall true (ShScalar (SInt 7)) None] /\
  main_result true stale_text = Ok [SeenFlag true; SeenCall true (ShScalar (SInt 7)) None] /\
  source_result (fst (text_tree stale_text)) 100 = Some None /\
  main_result false fresh_text = Ok [SeenFlag true; SeenCall true ShNone None].
Proof. repeat split; vm_compute; reflexivity. Qed.
Print Assumptions C42_stale_value.
