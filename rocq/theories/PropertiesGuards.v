(** and / or evaluate both sides: C127. *)
From Coq Require Import ZArith List Bool Lia String ZifyBool.
From Verif Require Import PropertiesRun PropertiesSched.
From Verif Require Import Base BaseFacts F32 Instr Program ProgramProofs VM AbsHeap Gc GcSpec Refine Host HostProofs Demo VmSpec Source Lexer Ast Parser
  Sema SemaSpec Optimize Codegen Build BuildSpec SrcSem OptSpec OptFacts SemaIds CgSpec CgLink CgRun CgFlow CgWell ParseFine
  RunSpec OptRun HostRun PropertiesOpt PropertiesCodegen PropertiesBuild SafeSpec PropertiesSafe DriverMain DriverSpec PropertiesDriver PropertiesExamples.
Import ListNotations.
Open Scope list_scope.
Open Scope Z_scope.

(** Is [s[i]] an 'a', and [i] below [n]?  Is it one, or [i] not below [n]? *)
Definition guard_text : string := "function both(s, n, i)
  if (i < n and s[i] == 97)
    return 1
  end
  return 0
end
function either(s, n, i)
  if (i >= n or s[i] == 97)
    return 1
  end
  return 0
end
"%string.

(** ** From the source to the host, for calls that fail *)
Section Lift.
  Variable text : string.
  Variable items : list ritem.
  Variable n : nat.
  Hypothesis T : say_tree text = (items, n).
  Hypothesis N0 : n <> 0%nat.
  Hypothesis U : unshared items.
  Hypothesis B : forall on, build 5 (file_named text) Z.of_nat on driver_regs (say_m text) = Ok (Some (compiled on text)).
  Hypothesis F : forall on, fits (compiled on text).
  Variable start : world -> sst.
  Hypothesis W : forall w, s_world (start w) = w.
  Hypothesis R : forall on w, let q := driver_resolve (compiled on text) in
    initial items (entry items q) (sys_index q) (vm_sys q) 20 (fresh_state w) = Done (start w).
  Lemma lift_error f x vs e j : named items f = Some x ->
    Forall (fun v => forall s, v = Some (SStr s) -> ~ In 0 s) vs ->
    (forall on, exists g, function_find (driver_resolve (compiled on text)) f = Some g) ->
    (forall on st, let q := driver_resolve (compiled on text) in
      run_call items (entry items q) (sys_index q) (vm_sys q) j x (map passed vs) st = Error e st) ->
    host_gets text f vs (SeenCall false ShNone (Some e)).
  Proof.
    intros Nx Nn Gx Rc on. split; [apply B|]. intros q k w N c0 y v1 H D c1. destruct (Gx on) as [g G]. exists g. split; [exact G|].
    pose proof (say_analysed text) as A. rewrite T in A. specialize (A N0). cbn [fst snd] in A.
    pose proof (R on w) as R1. pose proof (Rc on (next_call (start w))) as Rc1. cbv zeta in R1, Rc1. fold q in R1, Rc1.
    assert (S : session items (entry items q) (sys_index q) (vm_sys q) (next_call (start w)) [(f, vs)] [SeenCall false ShNone (Some e)] (next_call (next_call (start w)))).
    { eapply session_error; [exact Nx|exact Rc1|constructor]. }
    assert (I : init_result (initial items (entry items q) (sys_index q) (vm_sys q) 20 (fresh_state w)) = Some (true, start w)) by (rewrite R1; reflexivity).
    destruct (C82_host_sees_source 5 (file_named text) Z.of_nat on driver_regs (say_m text) (compiled on text) q items n (B on) (F on) (driver_bound _) A (fun _ => U)
      20 w true (start w) I _ _ _ S k N c0 y v1 H D [(c1, HCallOnce g vs)]) as [De|(E1 & E2 & E3)].
    - cbn. unfold call_op. cbn [fst snd]. fold q in G. now rewrite G.
    - cbn. constructor; [exact Nn|constructor].
    - left. cbn in De. unfold call_op in De. cbn [fst snd] in De. fold q in G. now rewrite G in De.
    - right. rewrite W in E2. split; [exact E1|]. split; [exact E2|]. destruct E3 as [E3|(v2 & E3 & E4)]; [left; exact E3|right].
      exists v2. split; [exact E3|]. rewrite E4. cbn. apply W.
  Qed.
End Lift.

Definition guard_items : list ritem := Eval vm_compute in fst (say_tree guard_text).
Definition both_fun := Eval vm_compute in the_fun guard_items (bs "both").
Definition either_fun := Eval vm_compute in the_fun guard_items (bs "either").

Ltac guard_sides := 
    [> vm_compute; reflexivity|vm_compute; discriminate|apply unshared_b_ok; vm_compute; reflexivity
    |intros [|]; vm_compute; reflexivity|intros [|]; apply fitsb_ok; vm_compute; reflexivity|reflexivity|intros on w; reflexivity
    |reflexivity|assumption|intros [|]; eexists; vm_compute; reflexivity|intros on st q; auto ].
Lemma guard_value (b : bool) vs c :
  Forall (fun v => forall s, v = Some (SStr s) -> ~ In 0 s) vs ->
  (forall fa si sy st, run_call guard_items fa si sy 20 (if b then both_fun else either_fun) (map passed vs) st = Done (AS c, st)) ->
  host_gets guard_text (bs (if b then "both" else "either")%string) vs (SeenCall true (ShScalar c) None).
Proof.
  intros Nn R. destruct b.
  - apply (lift guard_text guard_items (snd (say_tree guard_text))) with (start := fun w => St [] [] w []) (x := both_fun) (j := 20%nat); guard_sides.
  - apply (lift guard_text guard_items (snd (say_tree guard_text))) with (start := fun w => St [] [] w []) (x := either_fun) (j := 20%nat); guard_sides.
Qed.
Lemma guard_error (b : bool) vs e :
  Forall (fun v => forall s, v = Some (SStr s) -> ~ In 0 s) vs ->
  (forall fa si sy st, run_call guard_items fa si sy 20 (if b then both_fun else either_fun) (map passed vs) st = Error e st) ->
  host_gets guard_text (bs (if b then "both" else "either")%string) vs (SeenCall false ShNone (Some e)).
Proof.
  intros Nn R. destruct b.
  - apply (lift_error guard_text guard_items (snd (say_tree guard_text))) with (start := fun w => St [] [] w []) (x := both_fun) (j := 20%nat); guard_sides.
  - apply (lift_error guard_text guard_items (snd (say_tree guard_text))) with (start := fun w => St [] [] w []) (x := either_fun) (j := 20%nat); guard_sides.
Qed.

Lemma do_lt a b st : apply2 BLt (AS (SInt a)) (AS (SInt b)) st = Done (AS (SInt (b2z (a <? b))), st).
Proof. reflexivity. Qed.
Lemma do_eq a b st : apply2 BEq (AS (SInt a)) (AS (SInt b)) st = Done (AS (SInt (b2z (a =? b))), st).
Proof. reflexivity. Qed.
Lemma do_and a b st : apply2 BAnd (AS (SInt (b2z a))) (AS (SInt (b2z b))) st = Done (AS (SInt (b2z (a && b))), st).
Proof. now destruct a, b. Qed.
Lemma do_or a b st : apply2 BOr (AS (SInt (b2z a))) (AS (SInt (b2z b))) st = Done (AS (SInt (b2z (a || b))), st).
Proof. now destruct a, b. Qed.
Lemma element_in (s : bytes) i x st : znth s i = Some x -> element (AS (SStr s)) (AS (SInt i)) st = Done (AS (SInt x), st).
Proof. intros E. cbn. now rewrite E. Qed.
Lemma element_out (s : bytes) i st : znth s i = None -> element (AS (SStr s)) (AS (SInt i)) st = Error e_bad_array_bounds st.
Proof. intros E. cbn. now rewrite E. Qed.
Lemma char_in (s : bytes) i x : 0 <= i -> nth_error s (Z.to_nat i) = Some x -> znth s i = Some x.
Proof. intros P E. rewrite znth_nth_error by exact P. exact E. Qed.
Lemma char_out (s : bytes) i : i < 0 \/ Z.of_nat (List.length s) <= i -> znth s i = None.
Proof. intros P. apply znth_none. unfold zlen. lia. Qed.
Ltac sg := cbn -[apply2 truth element b2z Z.ltb Z.leb Z.eqb andb orb].

Definition cond_of (x : fdecl * list vdecl * list rstmt) : rexpr := match snd x with RIf _ c _ _ :: _ => c | _ => RNone (Line 0 0) end.
Definition then_of (x : fdecl * list vdecl * list rstmt) : option (list rstmt) := match snd x with RIf _ _ b _ :: _ => b | _ => None end.
Definition rest_of (x : fdecl * list vdecl * list rstmt) : list rstmt := match snd x with RIf _ _ _ _ :: r => r | _ => [] end.
Definition guard_env (x : fdecl * list vdecl * list rstmt) (s : bytes) (n i : Z) : env :=
  Env (combine (map vd_id (snd (fst x))) [AS (SStr s); AS (SInt n); AS (SInt i)]) [].
Section Guards.
  Variable fa : nat -> Z.
  Variable si : bytes -> Z.
  Variable sy : Z -> list aval -> sst -> outcome (aval * sst).
  Notation RE := (run_expr guard_items fa si sy).
  Lemma guard_head (b : bool) m s n i st : let x := if b then both_fun else either_fun in
    run_call guard_items fa si sy (5 + m) x [AS (SStr s); AS (SInt n); AS (SInt i)] st =
    let* (o, _, st1) := (let* (o, r1, st1) := (let* (c, st1) := RE (2 + m)%nat (guard_env x s n i) (cond_of x) st in
        let* b := truth c st1 in run_block guard_items fa si sy (2 + m) (guard_env x s n i) (if b then then_of x else None) st1) in
      match o with Some v => Done (Some v, r1, st1) | None => run_stmts guard_items fa si sy (3 + m) r1 (rest_of x) st1 end) in
    match o with Some v => Done (v, st1) | None => Done (AS (SInt 0), st1) end.
  Proof. destruct b; reflexivity. Qed.
  Lemma guard_ends (b : bool) s n i t st : let x := if b then both_fun else either_fun in
    RE 17%nat (guard_env x s n i) (cond_of x) st = Done (AS (SInt (b2z t)), st) ->
    run_call guard_items fa si sy 20 x [AS (SStr s); AS (SInt n); AS (SInt i)] st = Done (AS (SInt (b2z t)), st).
  Proof.
    intros x E. change 20%nat with (5 + 15)%nat. subst x. rewrite guard_head. change (2 + 15)%nat with 17%nat. rewrite E. cbn [obind]. rewrite do_truth.
    destruct b, t; reflexivity.
  Qed.
  Lemma guard_fails (b : bool) s n i e st : let x := if b then both_fun else either_fun in
    RE 17%nat (guard_env x s n i) (cond_of x) st = Error e st ->
    run_call guard_items fa si sy 20 x [AS (SStr s); AS (SInt n); AS (SInt i)] st = Error e st.
  Proof. intros x E. change 20%nat with (5 + 15)%nat. subst x. rewrite guard_head. change (2 + 15)%nat with 17%nat. now rewrite E. Qed.
  Lemma both_in (s : bytes) n i x st : znth s i = Some x ->
    run_call guard_items fa si sy 20 both_fun [AS (SStr s); AS (SInt n); AS (SInt i)] st = Done (AS (SInt (b2z ((i <? n) && (x =? 97)))), st).
  Proof. intros E. apply (guard_ends true). sg. rewrite do_lt. sg. rewrite (element_in _ _ _ _ E). sg. rewrite do_eq. sg. now rewrite do_and. Qed.
  Lemma either_in (s : bytes) n i x st : znth s i = Some x ->
    run_call guard_items fa si sy 20 either_fun [AS (SStr s); AS (SInt n); AS (SInt i)] st = Done (AS (SInt (b2z ((n <=? i) || (x =? 97)))), st).
  Proof. intros E. apply (guard_ends false). sg. rewrite do_geq. sg. rewrite (element_in _ _ _ _ E). sg. rewrite do_eq. sg. now rewrite do_or. Qed.
  Lemma both_out (s : bytes) n i st : znth s i = None ->
    run_call guard_items fa si sy 20 both_fun [AS (SStr s); AS (SInt n); AS (SInt i)] st = Error e_bad_array_bounds st.
  Proof. intros E. apply (guard_fails true). sg. rewrite do_lt. sg. now rewrite (element_out _ _ _ E). Qed.
  Lemma either_out (s : bytes) n i st : znth s i = None ->
    run_call guard_items fa si sy 20 either_fun [AS (SStr s); AS (SInt n); AS (SInt i)] st = Error e_bad_array_bounds st.
  Proof. intros E. apply (guard_fails false). sg. rewrite do_geq. sg. now rewrite (element_out _ _ _ E). Qed.
End Guards.

(** ** C127: and, or and guards *)
Lemma guard_args s n i : ~ In 0 s -> Forall (fun v => forall t, v = Some (SStr t) -> ~ In 0 t) [Some (SStr s); Some (SInt n); Some (SInt i)].
Proof. intros Z. constructor; [intros t E; injection E as <-; exact Z|]. constructor; [discriminate|]. constructor; [discriminate|constructor]. Qed.
(** With an index inside the string the functions say what they should. *)
Theorem C127_inside : forall s n i x, ~ In 0 s -> 0 <= i -> nth_error s (Z.to_nat i) = Some x ->
  host_gets guard_text (bs "both") [Some (SStr s); Some (SInt n); Some (SInt i)]
    (SeenCall true (ShScalar (SInt (if (i <? n) && (x =? 97) then 1 else 0))) None) /\
  host_gets guard_text (bs "either") [Some (SStr s); Some (SInt n); Some (SInt i)]
    (SeenCall true (ShScalar (SInt (if (n <=? i) || (x =? 97) then 1 else 0))) None).
Proof.
  intros s n i x Z P E. split.
  - apply (guard_value true); [now apply guard_args|]. intros. rewrite (both_in _ _ _ s n i x) by now apply char_in. now destruct (_ && _).
  - apply (guard_value false); [now apply guard_args|]. intros. rewrite (either_in _ _ _ s n i x) by now apply char_in. now destruct (_ || _).
Qed.
(** Finding: an index outside the string is an error, although the left side of the
    [and] is false and that of the [or] true: neither guards the right side. *)
Theorem C127_no_guard : forall s n i, ~ In 0 s -> i < 0 \/ Z.of_nat (List.length s) <= i ->
  host_gets guard_text (bs "both") [Some (SStr s); Some (SInt n); Some (SInt i)] (SeenCall false ShNone (Some e_bad_array_bounds)) /\
  host_gets guard_text (bs "either") [Some (SStr s); Some (SInt n); Some (SInt i)] (SeenCall false ShNone (Some e_bad_array_bounds)).
Proof.
  intros s n i Z P. split.
  - apply (guard_error true); [now apply guard_args|]. intros. apply both_out. now apply char_out.
  - apply (guard_error false); [now apply guard_args|]. intros. apply either_out. now apply char_out.
Qed.
(** In every program, if the right side of an [and] or [or] fails or calls something,
    it does so whatever the left side is. *)
Theorem C127_both_sides : forall items fa si sy m op l a b r st v st1, op = BAnd \/ op = BOr ->
  run_expr items fa si sy m r a st = Done (v, st1) ->
  (forall e st2, run_expr items fa si sy m r b st1 = Error e st2 -> run_expr items fa si sy (S m) r (RBin op l a b) st = Error e st2) /\
  (forall u st2 t st3, run_expr items fa si sy m r b st1 = Done (u, st2) -> run_expr items fa si sy (S m) r (RBin op l a b) st = Done (t, st3) -> s_world st3 = s_world st2).
Proof.
  intros items fa si sy m op l a b r st v st1 O E.
  assert (X : run_expr items fa si sy (S m) r (RBin op l a b) st =
    let* (x, st1) := run_expr items fa si sy m r a st in let* (y, st2) := run_expr items fa si sy m r b st1 in apply2 op x y st2) by reflexivity.
  split.
  - intros e st2 F. rewrite X, E. cbn [obind]. now rewrite F.
  - intros u st2 t st3 F. rewrite X, E. cbn [obind]. rewrite F. cbn [obind]. intros Y. 
    destruct O as [-> | ->]; cbn in Y; unfold apply2 in Y; destruct (look st2 v) as [[]| | |]; try discriminate Y; cbn in Y; destruct (look st2 u) as [[]| | |]; try discriminate Y; cbn in Y;
    now injection Y as <- <-.
Qed.
(** "cat", 3 and 1: an 'a' inside; 3 and 7: the guard is false, and the call fails. *)
Example C127_ex : nth_error (bs "cat") (Z.to_nat 1) = Some 97 /\ ~ In 0 (bs "cat") /\ Z.of_nat (List.length (bs "cat")) <= 7 /\
  (forall on, exists v1 v2 v3, let q := driver_resolve (compiled on guard_text) in
     host_step q (cfg_ops cfg_always) 500 HCallInit (vm_start 0 world0) = Ok (SeenFlag true, v1) /\ init_done v1 /\
     host_gc q 900 [(cfg_always, call_op q (bs "both", [Some (SStr (bs "cat")); Some (SInt 3); Some (SInt 1)]))] v1 = Ok ([SeenCall true (ShScalar (SInt 1)) None], v2) /\
     host_gc q 900 [(cfg_always, call_op q (bs "both", [Some (SStr (bs "cat")); Some (SInt 3); Some (SInt 7)]))] v1 = Ok ([SeenCall false ShNone (Some e_bad_array_bounds)], v3)).
Proof.
  split; [reflexivity|]. split; [cbn; intuition discriminate|]. split; [discriminate|].
  intros [|]; eexists _, _, _; (split; [vm_compute; reflexivity|]; split; [eexists [], _; split; reflexivity|]; split; vm_compute; reflexivity).
Qed.

Print Assumptions C127_inside.
Print Assumptions C127_no_guard.
Print Assumptions C127_both_sides.
