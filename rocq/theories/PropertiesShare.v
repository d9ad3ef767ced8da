(** Properties of optimised builds: C96.  The vocabulary is that of ShareSpec.v
    (what the text may not do), OptSpec.v and RunSpec.v. *)
From Coq Require Import ZArith List Bool Lia String.
From Verif Require Import PropertiesRun PropertiesSched.
From Verif Require Import Base BaseFacts F32 Instr Program VM AbsHeap Gc GcSpec Refine Host HostProofs Demo VmSpec Source Lexer Ast Parser
  Sema SemaSpec Optimize Codegen Build BuildSpec SrcSem OptSpec OptFacts SemaIds CgSpec CgLink CgRun CgFlow CgWell ParseFine
  RunSpec OptRun HostRun PropertiesOpt PropertiesCodegen PropertiesBuild ShareSpec SemaShare.
Import ListNotations.
Open Scope list_scope.
Open Scope Z_scope.

(** ** C96: the optimiser is safe unless an [if] tests a constant by name *)

(** Whatever the files, the registered syscalls and the addresses of the nodes. *)
Theorem C96_optimiser_safe : forall fuel fs addr regs m src m' items n on items' n',
  parse_sources fuel fs m 0 [] [] = Ok (src, m') -> tests_no_constant src ->
  run_sema addr (map (fun x => CSys (fst x) (snd x)) regs ++ map CItem src) = Ok (items, n) ->
  run_optimize on items n = Ok (items', n') ->
  same_behaviour items items'.
Proof.
  intros fuel fs addr regs m src m' items n on items' n' _ T S O.
  eapply C36_whole_optimiser; [|eapply no_test_unshared; eassumption|exact O].
  intros id. now apply run_sema_ids with (addr := addr) (1 := S).
Qed.

(** [C82_host_sees_source] with a condition on the text: whether the optimiser is
    on or off, the host sees what the source means. *)
Theorem C96_optimised_host : forall fuel fs addr on regs m p q src m' items n,
  build fuel fs addr on regs m = Ok (Some p) -> fits p -> bound p q ->
  parse_sources fuel fs m 0 [] [] = Ok (src, m') -> tests_no_constant src ->
  run_sema addr (map (fun x => CSys (fst x) (snd x)) regs ++ map CItem src) = Ok (items, n) ->
  forall j w b st, init_result (initial items (entry items q) (sys_index q) (vm_sys q) j (fresh_state w)) = Some (b, st) ->
  forall calls xs st2, session items (entry items q) (sys_index q) (vm_sys q) (next_call st) calls xs st2 ->
  forall k N c0 x v1, host_step q (cfg_ops c0) N HCallInit (vm_start k w) = Ok (x, v1) -> init_done v1 ->
  forall l, map snd l = map (call_op q) calls -> Forall op_nonul (map snd l) ->
  goes_deep q N (abs_start k w) (HCallInit :: map (call_op q) calls) \/
  x = SeenFlag b /\ vm_world v1 = s_world st /\
  (exhausted (host_gc q N l v1) \/ exists v2, host_gc q N l v1 = Ok (xs, v2) /\ vm_world v2 = s_world st2).
Proof.
  intros fuel fs addr on regs m p q src m' items n B F Bo P T Sm.
  apply (C82_host_sees_source fuel fs addr on regs m p q items n B F Bo); [exists src, m'; split; assumption|].
  intros _. eapply no_test_unshared; eassumption.
Qed.

(** ** Example

    A constant used in conditions, in an index and as a result; two branches that
    the optimiser decides. *)
Definition share_text : string := "const LIMIT = 2
const DEBUG = 0
var g = LIMIT + 1
function f(x)
  var a = [LIMIT, DEBUG, x]
  if (DEBUG > 0)
    g = 100
  else
    g = g + LIMIT
  end
  if (1)
    g = g + 1
  end
  if (not DEBUG)
    a[0] = g
  end
  return a[0] + a[LIMIT]
end
"%string.
Definition share_m : list source_t := snd (sm_load_from_string [] (bs share_text)).
Definition share_src : list item := match parse_sources 5 (fun _ => None) share_m 0 [] [] with Ok (src, _) => src | _ => [] end.
Definition share_build (on : bool) : res (option program_t) := build 5 (fun _ => None) Z.of_nat on [] share_m.
Definition share_prog (on : bool) : program_t := match share_build on with Ok (Some p) => p | _ => Prog [] [] [] [] [] [] end.
Definition share_items : list ritem := fst (text_tree share_text).
Definition share_calls : list host_call := [(bs "f", [Some (SInt 5)]); (bs "f", [Some (SInt 7)])].
Definition share_init on := init_result (initial share_items (entry share_items (share_prog on)) (sys_index (share_prog on)) (vm_sys (share_prog on)) 50 (fresh_state world0)).
Definition share_start on := match share_init on with Some (_, st) => st | None => fresh_state world0 end.
Definition share_end on : sst :=
  match session_run_b share_items (share_prog on) 100 (next_call (share_start on)) share_calls with Some (_, st) => st | None => fresh_state world0 end.
Definition tests_no_constant_b (src : list item) : bool :=
  forallb (fun e => match e with EIdent x _ => negb (existsb (bytes_eqb x) (constant_names src)) | _ => true end) (text_tests src).
Lemma tests_no_constant_b_ok src : tests_no_constant_b src = true -> tests_no_constant src.
Proof.
  intros H x l I C. unfold tests_no_constant_b in H. rewrite forallb_forall in H. specialize (H _ I). cbv beta iota in H.
  apply negb_true_iff in H. apply not_true_iff_false in H. apply H. apply existsb_exists. exists x. split; [exact C|].
  now apply bytes_eqb_eq.
Qed.
Example C96_ex :
  parse_sources 5 (fun _ => None) share_m 0 [] [] = Ok (share_src, share_m) /\
  tests_no_constant share_src /\ List.length (text_tests share_src) = 3%nat /\ List.length (constant_names share_src) = 2%nat /\
  (exists p0 p1, share_build false = Ok (Some p0) /\ share_build true = Ok (Some p1) /\
     (List.length (p_code p1) < List.length (p_code p0))%nat) /\
  forall on,
    fits (share_prog on) /\ bound (share_prog on) (share_prog on) /\ share_init on = Some (true, share_start on) /\
    session share_items (entry share_items (share_prog on)) (sys_index (share_prog on)) (vm_sys (share_prog on))
      (next_call (share_start on)) share_calls
      [SeenCall true (ShScalar (SInt 11)) None; SeenCall true (ShScalar (SInt 16)) None] (share_end on) /\
    exists v1, host_step (share_prog on) (cfg_ops cfg_always) 500 HCallInit (vm_start 0 world0) = Ok (SeenFlag true, v1) /\ init_done v1.
Proof.
  split; [vm_compute; reflexivity|]. split; [apply tests_no_constant_b_ok; vm_compute; reflexivity|].
  split; [vm_compute; reflexivity|]. split; [vm_compute; reflexivity|].
  split. { exists (share_prog false), (share_prog true). split; [vm_compute; reflexivity|]. split; [vm_compute; reflexivity|].
           apply Nat.ltb_lt. vm_compute. reflexivity. }
  intros on. assert (H : on = true \/ on = false) by (destruct on; auto).
  destruct H as [-> | ->];
    (split; [apply fitsb_ok; vm_compute; reflexivity|]; split; [apply bound_self|]; split; [vm_compute; reflexivity|];
     split; [apply (session_run_b_ok _ _ 100); vm_compute; reflexivity|];
     eexists; split; [vm_compute; reflexivity|]; eexists [], _; split; reflexivity).
Qed.

Print Assumptions C96_optimiser_safe.
Print Assumptions C96_optimised_host.
