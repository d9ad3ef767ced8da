(** Properties of the names of runtime errors: C126. *)
From Coq Require Import ZArith List Bool Lia String.
From Verif Require Import PropertiesRun PropertiesSched.
From Verif Require Import Base BaseFacts F32 Instr Program ProgramProofs VM AbsHeap Gc GcSpec Refine Host HostProofs Demo VmSpec Source Lexer Ast Parser
  Sema SemaSpec Optimize Codegen Build BuildSpec SrcSem OptSpec OptFacts SemaIds CgSpec CgLink CgRun CgFlow CgWell ParseFine
  RunSpec OptRun HostRun PropertiesOpt PropertiesCodegen PropertiesBuild SafeSpec PropertiesSafe SafeVmSpec SafeRun PropertiesSafeRun
  DriverMain DriverSpec PropertiesDriver PropertiesExamples PropertiesGuards ErrorText SrcErrors.
Import ListNotations.
Open Scope list_scope.
Open Scope Z_scope.

(** The errors that a program made by the compiler can end with. *)
Definition reasons : list terr :=
  [e_bad_divide_by_zero; e_bad_array_bounds; e_bad_array_index; e_bad_array_object; e_bad_type_operation; e_bad_argument;
   e_bad_member_access; e_bad_num_args; e_bad_getv; e_bad_setv; e_bad_get_global; e_bad_set_global].

(** What the errors are called, lib_vm/thread_error.h. *)
Definition called : list (option terr * string) :=
  [(None, "e_success"); (Some e_max_cycle_count, "e_max_cycle_count"); (Some e_bad_prepare, "e_bad_prepare"); (Some e_bad_getv, "e_bad_getv");
   (Some e_bad_setv, "e_bad_setv"); (Some e_bad_num_args, "e_bad_num_args"); (Some e_bad_syscall, "e_bad_syscall"); (Some e_bad_opcode, "e_bad_opcode");
   (Some e_bad_set_global, "e_bad_set_global"); (Some e_bad_get_global, "e_bad_get_global"); (Some e_bad_pop, "e_bad_pop");
   (Some e_bad_divide_by_zero, "e_bad_divide_by_zero"); (Some e_stack_overflow, "e_stack_overflow"); (Some e_stack_underflow, "e_stack_underflow");
   (Some e_bad_globals_size, "e_bad_globals_size"); (Some e_bad_array_bounds, "e_bad_array_bounds"); (Some e_bad_array_index, "e_bad_array_index");
   (Some e_bad_array_object, "e_bad_array_object"); (Some e_bad_type_operation, "e_bad_type_operation"); (Some e_bad_argument, "e_bad_argument");
   (Some e_bad_member_access, "e_bad_member_access")]%string.

(** ** C126: names of errors *)
(** Every error is called something, and its text, if it has one, is what it is called. *)
Theorem C126_called : forall e, exists s, In (e, s) called /\ (forall s', In (e, s') called -> s' = s) /\
  (forall t, get_thread_error e = Ok t -> t = bs s).
Proof.
  intros [[]|]; eexists; (split; [cbn; repeat (first [left; reflexivity|right])|]);
    (split; [intros s' I; cbn in I; repeat (destruct I as [I|I]; [first [discriminate I|now injection I as <-]|]); destruct I|]);
    intros t E; first [discriminate E|now injection E as <-].
Qed.
(** Different errors have different names. *)
Theorem C126_distinct : forall e e' t, get_thread_error e = Ok t -> get_thread_error e' = Ok t -> e = e'.
Proof.
  assert (K : forall t, match t with Ok t => forall e, get_thread_error e = Ok t -> exists i, find (fun x => match get_thread_error x with Ok y => bytes_eqb y t | _ => false end)
      (None :: map Some [e_max_cycle_count; e_bad_getv; e_bad_setv; e_bad_num_args; e_bad_syscall; e_bad_opcode; e_bad_set_global; e_bad_get_global; e_bad_pop;
        e_bad_divide_by_zero; e_stack_overflow; e_stack_underflow; e_bad_globals_size; e_bad_array_bounds; e_bad_type_operation; e_bad_argument; e_bad_array_index; e_bad_member_access]) = Some i /\ i = e | _ => True end).
  { intros [t|? ?|?]; try exact Logic.I. intros [[]|] E; try discriminate E; injection E as <-; eexists; split; vm_compute; reflexivity. }
  intros e e' t E E'. destruct (K (Ok t) e E) as (i & F & <-). destruct (K (Ok t) e' E') as (j & F' & <-). congruence.
Qed.
(** Finding: two errors have no name, asking for it aborts the process. *)
Theorem C126_which : forall e,
  (exists t, get_thread_error e = Ok t) \/ get_thread_error e = Stuck SAssert /\ (e = Some e_bad_prepare \/ e = Some e_bad_array_object).
Proof. intros [[]|]; cbn; eauto. Qed.

(** What can go wrong in a compiled program, whatever the host does with it. *)
Lemma unconfused_reason e : ~ confused e -> In e reasons.
Proof. unfold confused, reasons. destruct e; cbn; tauto. Qed.
Theorem C126_compiled : forall fuel fs addr on regs m p, incl regs (builtin_arity ++ driver_arity) ->
  build fuel fs addr on regs m = Ok (Some p) -> fits p ->
  let q := driver_resolve p in
  forall k w N l, Forall op_nonul (map snd l) -> Forall (op_ok q) (map snd l) -> ~ misused q (map snd l) (abs_start k w) ->
  forall xs v, host_gc q N l (vm_start k w) = Ok (xs, v) ->
  forall e, (exists t, In t (vm_threads v) /\ t_err t = Some e) \/ (exists b r, In (SeenCall b r (Some e)) xs) ->
  In e reasons /\ ((exists t, get_thread_error (Some e) = Ok t) \/ e = e_bad_array_object).
Proof.
  intros fuel fs addr on regs m p I B F q k w N l ON OK NM xs v H e E.
  destruct (C100_from_text fuel fs addr on regs m p I B F k w N l ON OK) as [M|R]; [destruct (NM M)|]. fold q in R. rewrite H in R.
  destruct R as (R1 & R2 & _).
  assert (R : In e reasons) by (apply unconfused_reason; destruct E as [(t & It & Et)|(b & r & It)]; [eapply R1; eassumption|eapply R2; eassumption]).
  split; [exact R|]. destruct (C126_which (Some e)) as [T|[_ [A|A]]]; [left; exact T| |right; congruence].
  injection A as ->. cbn in R. intuition discriminate.
Qed.

(** Called by a host after it has been initialised, a program fails only through what
    its own text does: it never reads or writes a variable that is not there. *)
Theorem C126_calls : forall fuel fs addr on regs m p q items n,
  build fuel fs addr on regs m = Ok (Some p) -> fits p -> bound p q ->
  analysed fuel fs addr regs m items n -> (on = true -> unshared items) ->
  forall j w b st, init_result (initial items (entry items q) (sys_index q) (vm_sys q) j (fresh_state w)) = Some (b, st) ->
  forall calls xs st2, session items (entry items q) (sys_index q) (vm_sys q) (next_call st) calls xs st2 ->
  forall k N c0 x v1, host_step q (cfg_ops c0) N HCallInit (vm_start k w) = Ok (x, v1) -> init_done v1 ->
  forall l, map snd l = map (call_op q) calls -> Forall op_nonul (map snd l) ->
  forall ys v2, host_gc q N l v1 = Ok (ys, v2) ->
  forall ok r e, In (SeenCall ok r (Some e)) ys ->
  goes_deep q N (abs_start k w) (HCallInit :: map (call_op q) calls) \/
  In e [e_bad_divide_by_zero; e_bad_array_bounds; e_bad_array_index; e_bad_array_object; e_bad_type_operation; e_bad_argument;
        e_bad_member_access; e_bad_num_args].
Proof.
  intros fuel fs addr on regs m p q items n B F Bo A U j w b st I calls xs st2 S k N c0 x v1 H D l L ON ys v2 R ok r e E.
  destruct (C82_host_sees_source fuel fs addr on regs m p q items n B F Bo A U j w b st I calls xs st2 S k N c0 x v1 H D l L ON) as [De|(_ & _ & X)]; [left; exact De|right].
  rewrite R in X. destruct X as [X|(v3 & X & _)]; [unfold exhausted in X; intuition discriminate|]. injection X as -> _.
  clear - S E. change (own_fault e). revert E. induction S as [|? ? ? ? ? ? ? ? ? ? _ _ _ IH|? ? ? ? ? ? ? ? ? ? _ Rc _ IH]; intros E.
  - destruct E.
  - destruct E as [E|E]; [discriminate E|auto].
  - destruct E as [E|E]; [|auto]. injection E as _ _ <-. exact (call_fault _ _ _ _ _ _ _ _ _ _ Rc).
Qed.

(** Finding: reading an element of none, with any index, is such an error. *)
Definition none_text : string := "function get(i)
  var a = none
  return a[i]
end
"%string.
Definition none_items : list ritem := Eval vm_compute in fst (say_tree none_text).
Definition none_fun := Eval vm_compute in the_fun none_items (bs "get").
Lemma none_call fa si sy i st : run_call none_items fa si sy 20 none_fun [i] st = Error e_bad_array_object st.
Proof. reflexivity. Qed.
Theorem C126_element_of_none : forall i, (forall s, i = Some (SStr s) -> ~ In 0 s) ->
  host_gets none_text (bs "get") [i] (SeenCall false ShNone (Some e_bad_array_object)) /\
  get_thread_error (Some e_bad_array_object) = Stuck SAssert.
Proof.
  intros i Ni. split; [|reflexivity].
  apply (lift_error none_text none_items (snd (say_tree none_text))) with (start := fun w => St [] [] w []) (x := none_fun) (j := 20%nat);
    [vm_compute; reflexivity|vm_compute; discriminate|apply unshared_b_ok; vm_compute; reflexivity
    |intros [|]; vm_compute; reflexivity|intros [|]; apply fitsb_ok; vm_compute; reflexivity|reflexivity|intros on w; reflexivity
    |reflexivity|constructor; [exact Ni|constructor]|intros [|]; eexists; vm_compute; reflexivity|intros on st q; apply none_call].
Qed.

(** A program that divides by zero, and one that reads an element of none. *)
Definition zero_text : string := "function main()
  var x = 0
  return 1 / x
end
"%string.
Example C126_ex : get_thread_error (Some e_bad_divide_by_zero) = Ok (bs "e_bad_divide_by_zero") /\
  (forall on, exists v1 v2, let q := driver_resolve (compiled on zero_text) in
     host_step q (cfg_ops cfg_always) 500 HCallInit (vm_start 0 world0) = Ok (SeenFlag true, v1) /\ init_done v1 /\
     host_gc q 900 [(cfg_always, call_op q (bs "main", []))] v1 = Ok ([SeenCall false ShNone (Some e_bad_divide_by_zero)], v2)) /\
  (forall on, exists v1 v2, let q := driver_resolve (compiled on none_text) in
     host_step q (cfg_ops cfg_always) 500 HCallInit (vm_start 0 world0) = Ok (SeenFlag true, v1) /\ init_done v1 /\
     host_gc q 900 [(cfg_always, call_op q (bs "get", [Some (SInt 3)]))] v1 = Ok ([SeenCall false ShNone (Some e_bad_array_object)], v2)).
Proof.
  split; [reflexivity|].
  split; intros [|]; eexists _, _; (split; [vm_compute; reflexivity|]; split; [eexists [], _; split; reflexivity|]; vm_compute; reflexivity).
Qed.

Print Assumptions C126_called.
Print Assumptions C126_distinct.
Print Assumptions C126_which.
Print Assumptions C126_compiled.
Print Assumptions C126_calls.
Print Assumptions C126_element_of_none.
