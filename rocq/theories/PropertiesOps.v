(** Properties of the operators: C43-C47.  Every statement is about executing
    the instruction on an arbitrary machine state, see [VmSpec]. *)
From Coq Require Import ZArith List Bool Lia ZifyBool Floats.SpecFloat.
From Verif Require Import Base BaseFacts F32 Instr InstrSpec InstrProofs Program VM Gc GcSpec
  Host Demo VmSpec VmFacts.
Import ListNotations.
Open Scope Z_scope.

Lemma bin_in : forall i, In i [INS_ADD; INS_SUB; INS_MUL; INS_DIV; INS_MOD; INS_AND; INS_OR;
        INS_LT; INS_GT; INS_LEQ; INS_GEQ; INS_EQ] -> binary_instr i.
Proof. auto. Qed.
Ltac bin := apply bin_in; cbn [In]; tauto.
Ltac push2 := eapply pushes2_intro; [bin|reflexivity|].
Ltac raise2 := eapply raises2_intro; [bin|reflexivity|].
Ltac undef2 := eapply undefined2_intro; [bin|reflexivity|].

(** An example state: [7] and the string "a" on the collected heap, about to
    execute [i]. *)
Definition ops_prog (i : instr) : program_t :=
  Prog [] [] [] (asm [I0 i; I1 INS_POP 1]) [] [].
Definition ops_heap : heap :=
  Heap (fun s => if s then 100 else 0)
       (fun s o => if s then if o =? 0 then Some (KS (SInt 7))
                             else if o =? 8 then Some (KS (SStr [97]))
                             else if o =? 24 then Some (KS (SInt (-2)))
                             else if o =? 32 then Some (KA [None; Some (true, 0)]) else None
                   else None) true.
Definition ops_state (stk : list ptr) : mst ptr heap :=
  Mst ops_heap [] world0 [] (Thread 0 stk [Frame 0 0 0 true] None false false 0 0 no_line []) [].

Ltac exists_at :=
  match goal with |- at_ins _ _ ?x =>
    split; [vm_compute; reflexivity|split; [vm_compute; discriminate|split; [vm_compute; auto|]]];
    eexists; split; reflexivity end.

Example binary_state_example :
  binary_state (gc_ops 5) (ops_prog INS_MOD) (ops_state [Some (true, 24); Some (true, 0); None])
               INS_MOD (PInt 7) (PInt (-2)) [None] /\
  binary_state (gc_ops 5) (ops_prog INS_ADD) (ops_state [Some (true, 24); Some (true, 8)])
               INS_ADD (PStr [97]) (PInt (-2)) [].
Proof.
  split; (split; [exists_at|split; [reflexivity|]]); do 4 eexists; repeat split; reflexivity.
Qed.

(** ** C43 Integer arithmetic *)

(** add, sub and mul push the exact result when it fits in 32 bits; otherwise
    the C++ signed arithmetic overflows. *)
Theorem C43_add_sub_mul : forall i a b z,
  (i = INS_ADD /\ z = a + b) \/ (i = INS_SUB /\ z = a - b) \/ (i = INS_MUL /\ z = a * b) ->
  (- 2 ^ 31 <= z < 2 ^ 31 -> pushes2 i (PInt a) (PInt b) (SInt z)) /\
  (~ - 2 ^ 31 <= z < 2 ^ 31 -> undefined2 i (PInt a) (PInt b) SOverflow).
Proof.
  intros i a b z [[-> ->]|[[-> ->]|[-> ->]]]; (split; intros R; [push2|undef2]);
    unfold op_add, op_sub, op_mul, chk32;
    match goal with |- context [in_i32 ?x] =>
      pose proof (in_i32_iff x) as Q; destruct (in_i32 x) end; try reflexivity; exfalso; lia.
Qed.

(** div and mod by a non-zero divisor push the quotient [q] and the remainder
    [m] of the division that truncates toward zero. *)
Theorem C43_div_mod : forall a b,
  - 2 ^ 31 <= a < 2 ^ 31 -> - 2 ^ 31 <= b < 2 ^ 31 -> b <> 0 ->
  ~ (a = - 2 ^ 31 /\ b = -1) ->
  exists q m, a = q * b + m /\ Z.abs m < Z.abs b /\ 0 <= m * a /\
    pushes2 INS_DIV (PInt a) (PInt b) (SInt q) /\
    pushes2 INS_MOD (PInt a) (PInt b) (SInt m).
Proof.
  intros a b Ra Rb B0 Ov. exists (Z.quot a b), (Z.rem a b).
  pose proof (Z.quot_rem' a b). pose proof (Z.rem_bound_abs a b B0).
  assert (0 <= Z.rem a b * a) by (apply Z.rem_sign_mul; auto).
  assert (F : in_i32 (Z.quot a b) = true).
  { apply in_i32_iff.
    assert (Z.abs (Z.quot a b) <= Z.abs a).
    { rewrite <- Z.quot_abs by auto.
      apply Z.quot_le_upper_bound; nia. }
    destruct (Z.eq_dec a (- 2 ^ 31)) as [->|]; [|lia].
    assert (Z.quot (- 2 ^ 31) b <> 2 ^ 31); [|lia].
    intros E. rewrite E in *. pose proof (Z.rem_bound_abs (- 2 ^ 31) b B0). nia. }
  split; [lia|]. split; [auto|]. split; [auto|].
  split; push2; unfold op_div, op_mod, chk32; (replace (b =? 0) with false by lia); rewrite F; reflexivity.
Qed.

(** The one quotient that does not fit. *)
Theorem C43_div_overflow :
  undefined2 INS_DIV (PInt (- 2 ^ 31)) (PInt (-1)) SOverflow /\
  undefined2 INS_MOD (PInt (- 2 ^ 31)) (PInt (-1)) SOverflow.
Proof. split; undef2; reflexivity. Qed.

(** A zero divisor is reported as an error and finishes the thread. *)
Theorem C43_divide_by_zero : forall a,
  raises2 INS_DIV (PInt a) (PInt 0) e_bad_divide_by_zero /\
  raises2 INS_MOD (PInt a) (PInt 0) e_bad_divide_by_zero.
Proof. intros; split; raise2; reflexivity. Qed.

(** ** C44 Operators are total on value kinds *)

(** Two operands can be concatenated with neither being text: a string and an
    array or syscall. *)
Definition untextual (v : pv) : Prop :=
  (exists n, v = PA n) \/ (exists n, v = PS (SSys n)).

Theorem C44_binary_total : forall i l r, binary_instr i ->
  (exists c, pushes2 i l r c) \/
  raises2 i l r e_bad_type_operation \/
  (raises2 i l r e_bad_divide_by_zero /\ (i = INS_DIV \/ i = INS_MOD) /\ r = PInt 0) \/
  (undefined2 i l r SOverflow /\ (exists a b, l = PInt a /\ r = PInt b)) \/
  (undefined2 i l r SAssert /\ i = INS_ADD /\
    ((exists s, l = PStr s /\ untextual r) \/ (exists s, r = PStr s /\ untextual l))).
Proof.
  intros i l r Hi.
  assert (K : forall f, binop i = Some f ->
    (exists c, f l r = Ok (OPush c)) \/
    f l r = Ok (ORaise e_bad_type_operation) \/
    (f l r = Ok (ORaise e_bad_divide_by_zero) /\ (i = INS_DIV \/ i = INS_MOD) /\ r = PInt 0) \/
    (f l r = Stuck SOverflow /\ (exists a b, l = PInt a /\ r = PInt b)) \/
    (f l r = Stuck SAssert /\ i = INS_ADD /\
    ((exists s, l = PStr s /\ untextual r) \/ (exists s, r = PStr s /\ untextual l)))).
  { intros f Hf. cbv [binary_instr In] in Hi.
    unfold untextual.
    repeat (destruct Hi as [<-|Hi];
      [cbn in Hf; match type of Hf with Some ?g = Some _ => assert (g = f) by congruence; subst f end;
       destruct l as [|[]|], r as [|[]|]; cbn; unfold chk32; cbn;
       repeat match goal with
       | |- context [if ?b =? 0 then _ else _] => destruct (b =? 0) eqn:?
       | |- context [in_i32 ?x] => destruct (in_i32 x) end; cbn;
       try (left; eexists; reflexivity);
       try (right; left; reflexivity);
       try (right; right; right; left; split; [reflexivity|eauto]);
       try (right; right; left; split; [reflexivity|split; [tauto|]]; repeat f_equal; lia);
       try (right; right; right; right; split; [reflexivity|split; [reflexivity|]]; eauto 8)
      |]). contradiction. }
  destruct (binary_do i Hi) as (f & Bf & _).
  destruct (K f Bf) as [(c & E)|[E|[(E & Q)|[(E & Q)|(E & Q)]]]].
  - left. exists c. eapply pushes2_intro; eauto.
  - right; left. eapply raises2_intro; eauto.
  - right; right; left. split; auto. eapply raises2_intro; eauto.
  - right; right; right; left. split; auto. eapply undefined2_intro; eauto.
  - right; right; right; right. split; auto. eapply undefined2_intro; eauto.
Qed.

Theorem C44_unary_total : forall v,
  (exists c, pushes1 INS_NOT v c) /\
  ((exists z, v = PInt z /\ - 2 ^ 31 < z < 2 ^ 31 /\ pushes1 INS_NEG v (SInt (- z))) \/
   (exists z, v = PInt z /\ ~ - 2 ^ 31 < z < 2 ^ 31) \/
   raises1 INS_NEG v e_bad_type_operation).
Proof.
  intros v. split.
  - eexists. eapply pushes1_intro; reflexivity.
  - destruct v as [|[z| | | |]|]; try (right; right; eapply raises1_intro; reflexivity).
    destruct (in_i32 (- z)) eqn:E.
    + pose proof E as E'. apply in_i32_iff in E'.
      destruct (Z.eq_dec z (2 ^ 31)).
      * right; left. exists z; split; auto; lia.
      * left. exists z. split; auto. split; [lia|]. eapply pushes1_intro; [reflexivity|].
        cbn. unfold chk32. rewrite E. reflexivity.
    + right; left. exists z; split; auto. intros R.
      assert (in_i32 (- z) = true) by (apply in_i32_iff; lia). congruence.
Qed.

(** ** C45 Comparison laws *)

(** On integers the operators decide the usual order. *)
Theorem C45_integer_order : forall a b,
  pushes2 INS_LT (PInt a) (PInt b) (bit (a < b) (Z_lt_dec a b)) /\
  pushes2 INS_GT (PInt a) (PInt b) (bit (a > b) (Z_gt_dec a b)) /\
  pushes2 INS_LEQ (PInt a) (PInt b) (bit (a <= b) (Z_le_dec a b)) /\
  pushes2 INS_GEQ (PInt a) (PInt b) (bit (a >= b) (Z_ge_dec a b)) /\
  pushes2 INS_EQ (PInt a) (PInt b) (bit (a = b) (Z.eq_dec a b)).
Proof.
  intros a b. unfold bit.
  repeat split; push2; unfold op_lt, op_gt, op_leq, op_geq, op_eq, b2z; do 3 f_equal;
    match goal with |- (if ?x then _ else _) = (if ?d then _ else _) => destruct d, x eqn:?; try reflexivity; exfalso; lia end.
Qed.

(** Equality of strings is equality of their bytes (strings without NUL), of
    functions equality of the function; none equals only none. *)
Lemma cstr_nonul : forall s, Forall (fun c => c <> 0) s -> cstr s = s.
Proof.
  induction s as [|c s IH]; intros F; auto. inversion F; subst. cbn.
  replace (c =? 0) with false by lia. now rewrite IH.
Qed.

Theorem C45_string_equality : forall s t,
  Forall (fun c => c <> 0) s -> Forall (fun c => c <> 0) t ->
  pushes2 INS_EQ (PStr s) (PStr t) (bit (s = t) (list_eq_dec Z.eq_dec s t)).
Proof.
  intros s t Fs Ft. push2. unfold op_eq. rewrite !cstr_nonul by auto. unfold bit.
  do 3 f_equal. destruct (list_eq_dec Z.eq_dec s t) as [->|N].
  - rewrite Z.eqb_refl, bytes_eqb_refl. reflexivity.
  - apply bytes_eqb_neq in N. rewrite N, andb_false_r. reflexivity.
Qed.

Theorem C45_none_equality : forall v,
  pushes2 INS_EQ PNone v (SInt (match v with PNone => 1 | _ => 0 end)) /\
  pushes2 INS_EQ v PNone (SInt (match v with PNone => 1 | _ => 0 end)).
Proof. intros v; split; push2; destruct v as [|[]|]; reflexivity. Qed.

Lemma SFcompare_sym : forall a b,
  SFcompare b a = match SFcompare a b with
                  | Some c => Some (CompOpp c) | None => None end.
Proof.
  assert (Q : forall x y, (x ?= y)%Z = CompOpp (y ?= x)%Z) by (intros; apply Z.compare_antisym).
  assert (Q' : forall x y, Pos.compare_cont Eq x y = CompOpp (Pos.compare_cont Eq y x))
    by (intros; apply (Pos.compare_antisym y x)).
  intros [[]|[]| |[] ma ea] [[]|[]| |[] mb eb]; try reflexivity; cbn;
    rewrite (Q eb ea); destruct (ea ?= eb)%Z; cbn; try reflexivity;
    rewrite (Q' mb ma); destruct (Pos.compare_cont Eq ma mb); reflexivity.
Qed.
Lemma f_eqb_sym : forall a b, f_eqb a b = f_eqb b a.
Proof.
  intros a b. unfold f_eqb, SFeqb. rewrite (SFcompare_sym a b).
  destruct (SFcompare a b) as [[]|]; reflexivity.
Qed.
Lemma f_eqb_refl : forall a, a <> S754_nan -> f_eqb a a = true.
Proof.
  intros [[]|[]| |[] m e] N; try reflexivity; try congruence; unfold f_eqb, SFeqb, SFcompare;
    rewrite Z.compare_refl, (Pos.compare_refl m : Pos.compare_cont Eq m m = Eq); reflexivity.
Qed.

(** Equality does not depend on the order of its operands, whatever they are. *)
Theorem C45_equality_symmetric : forall l r,
  (exists c, pushes2 INS_EQ l r c /\ pushes2 INS_EQ r l c) \/
  (raises2 INS_EQ l r e_bad_type_operation /\ raises2 INS_EQ r l e_bad_type_operation).
Proof.
  intros l r.
  assert (S : op_eq l r = op_eq r l).
  { destruct l as [|[]|], r as [|[]|]; try reflexivity; cbn; do 4 f_equal;
      try apply f_eqb_sym; try apply Z.eqb_sym.
    rewrite Z.eqb_sym. f_equal. destruct (bytes_eqb (cstr s) (cstr s0)) eqn:E.
    - apply bytes_eqb_eq in E. rewrite E, bytes_eqb_refl. reflexivity.
    - destruct (bytes_eqb (cstr s0) (cstr s)) eqn:E2; auto.
      apply bytes_eqb_eq in E2. rewrite E2, bytes_eqb_refl in E. discriminate. }
  assert (K : (exists c, op_eq l r = Ok (OPush c)) \/ op_eq l r = Ok (ORaise e_bad_type_operation)).
  { destruct l as [|[]|], r as [|[]|]; cbn; eauto. }
  destruct K as [(c & E)|E]; [left; exists c|right]; split;
    [push2; exact E|push2; rewrite <- S; exact E|raise2; exact E|raise2; rewrite <- S; exact E].
Qed.

(** Equality is reflexive on none, integers, strings, functions and floats other
    than NaN; comparing arrays or syscalls with anything but none raises an
    error. *)
Theorem C45_equality_reflexive : forall v,
  match v with
  | PFlt S754_nan => pushes2 INS_EQ v v (SInt 0)
  | PA _ | PS (SSys _) => raises2 INS_EQ v v e_bad_type_operation
  | _ => pushes2 INS_EQ v v (SInt 1)
  end.
Proof.
  intros [|[z|f|s|a|n]|n].
  - push2; reflexivity.
  - push2. cbn. now rewrite Z.eqb_refl.
  - destruct f eqn:E; try (push2; cbn [op_eq]; unfold float_cmp; cbn [is_number andb as_float bind];
      rewrite f_eqb_refl by discriminate; reflexivity).
    push2. reflexivity.
  - push2. cbn. rewrite Z.eqb_refl, bytes_eqb_refl. reflexivity.
  - push2. cbn. now rewrite Z.eqb_refl.
  - raise2; reflexivity.
  - raise2; reflexivity.
Qed.

(** A number compared with a float is converted to a float first, so an integer
    can be equal to a float that has another value. *)
Theorem C45_mixed_equality_rounds :
  pushes2 INS_EQ (PInt 16777217) (PFlt (f_of_int 16777216)) (SInt 1) /\
  pushes2 INS_EQ (PInt 16777217) (PInt 16777216) (SInt 0).
Proof. split; push2; vm_compute; reflexivity. Qed.

(** ** C46 String concatenation *)
Lemma to_text_spec : forall v t, has_text v t -> to_text v = Ok (zfirstn 15 t).
Proof.
  intros v t Hv. inversion Hv; subst; try reflexivity.
  cbn [to_text]. rewrite cstr_nonul by auto. reflexivity.
Qed.

Theorem C46_concat_left : forall s r t, has_text r t ->
  pushes2 INS_ADD (PStr s) r (SStr (s ++ zfirstn 15 t)).
Proof.
  intros s r t Ht. push2. pose proof (to_text_spec _ _ Ht) as E.
  unfold op_add. cbn [is_number andb]. rewrite E. destruct r as [|[]|]; reflexivity.
Qed.
Theorem C46_concat_right : forall l s t, has_text l t -> (forall s', l <> PStr s') ->
  pushes2 INS_ADD l (PStr s) (SStr (zfirstn 15 t ++ s)).
Proof.
  intros l s t Ht N. push2. pose proof (to_text_spec _ _ Ht) as E.
  unfold op_add.
  destruct l as [|[]|]; cbn [is_number andb]; try rewrite E; try reflexivity. now destruct (N s0).
Qed.
(** The decimal text of an integer fits, so it is never cut off, and it
    determines the integer. *)
Theorem C46_integer_text : forall s z, - 2 ^ 31 <= z < 2 ^ 31 ->
  pushes2 INS_ADD (PStr s) (PInt z) (SStr (s ++ dec z)) /\
  (forall y, dec y = dec z -> y = z).
Proof.
  intros s z R. split; [|intros; now apply dec_inj].
  replace (dec z) with (zfirstn 15 (dec z)).
  - apply C46_concat_left. constructor.
  - apply zfirstn_all.
    assert (L : forall n, 0 <= n <= 2 ^ 31 -> zlen (dec_nonneg n) <= 14).
    { intros n Rn. destruct (dec_nonneg_spec n) as (V & D & _); [lia|]. 
      assert (G : forall k m, 0 <= m < 10 ^ Z.of_nat k -> forall f acc, 
                 (k > 0)%nat -> zlen (dec_digits f m acc) <= Z.of_nat k + zlen acc).
      { induction k as [|k IH]; [lia|]. intros m Rm f acc _.
        destruct f as [|f]; cbn [dec_digits]; [pose proof (zlen_nonneg acc); lia|].
        destruct (m / 10 =? 0) eqn:E.
        - rewrite zlen_cons. lia.
        - assert (0 <= m / 10 < 10 ^ Z.of_nat k).
          { split; [apply Z.div_pos; lia|]. apply Z.div_lt_upper_bound; [lia|].
            rewrite Nat2Z.inj_succ, Z.pow_succ_r in Rm by lia. lia. }
          destruct k as [|k]; [cbn in *; lia|].
          specialize (IH (m / 10) H f (48 + m mod 10 :: acc)). rewrite zlen_cons in IH. lia. }
      unfold dec_nonneg. 
      etransitivity; [apply (G 14%nat n)|rewrite zlen_nil]; change (10 ^ Z.of_nat 14) with 100000000000000; lia. }
    unfold dec. destruct (z <? 0) eqn:E.
    + rewrite zlen_cons. specialize (L (- z)). lia.
    + specialize (L z). lia.
Qed.

(** Finding: a right operand longer than 15 bytes is truncated, and so
    concatenation is not associative. *)
Theorem C46_not_associative : exists a b c bc ab abc abc',
  pushes2 INS_ADD (PStr b) (PStr c) (SStr bc) /\
  pushes2 INS_ADD (PStr a) (PStr bc) (SStr abc) /\
  pushes2 INS_ADD (PStr a) (PStr b) (SStr ab) /\
  pushes2 INS_ADD (PStr ab) (PStr c) (SStr abc') /\
  zlen abc = 15 /\ zlen abc' = 20.
Proof.
  set (ten := zrepeat 65 10).
  assert (T : forall n, has_text (PStr (zrepeat 65 n)) (zrepeat 65 n)).
  { intros n. constructor. unfold zrepeat. induction (Z.to_nat n); cbn; constructor; auto; lia. }
  exists [], ten, ten, (ten ++ zfirstn 15 ten), ([] ++ zfirstn 15 ten),
    ([] ++ zfirstn 15 (zrepeat 65 20)), (ten ++ zfirstn 15 ten).
  split; [apply C46_concat_left, T|].
  split; [apply (C46_concat_left [] (PStr (zrepeat 65 20))), T|].
  split; [apply C46_concat_left, T|].
  split; [apply (C46_concat_left ten (PStr ten)), T|]. split; reflexivity.
Qed.

(** ** C47 Truthiness *)
Lemma as_bool_falsy : forall v, as_bool v = false <-> falsy v.
Proof.
  intros v. split.
  - destruct v as [|[z|f|s|a|n]|n]; cbn; intros E; try discriminate E; try constructor.
    + replace z with 0 by lia. constructor.
    + unfold f_nonzero, f_eqb, f_zero, SFeqb, SFcompare in E.
      destruct f as [sg|[]| |[] m e]; try discriminate E. constructor.
    + destruct s; [constructor|]. rewrite zlen_cons in E. pose proof (zlen_nonneg s). lia.
  - intros F; inversion F; subst; reflexivity.
Qed.

(** and, or and not look at both operands only through their truth, and push 0
    or 1. *)
Theorem C47_logic : forall l r, exists bl br : bool,
  (bl = false <-> falsy l) /\ (br = false <-> falsy r) /\
  pushes2 INS_AND l r (SInt (if bl then if br then 1 else 0 else 0)) /\
  pushes2 INS_OR l r (SInt (if bl then 1 else if br then 1 else 0)) /\
  pushes1 INS_NOT l (SInt (if bl then 0 else 1)).
Proof.
  intros l r. exists (as_bool l), (as_bool r). split; [apply as_bool_falsy|].
  split; [apply as_bool_falsy|]. split; [|split].
  - push2. unfold op_and, b2z. do 3 f_equal. now destruct (as_bool l), (as_bool r).
  - push2. unfold op_or, b2z. do 3 f_equal. now destruct (as_bool l), (as_bool r).
  - eapply pushes1_intro; [reflexivity|]. unfold op_not, b2z. do 3 f_equal. now destruct (as_bool l).
Qed.

Definition is_tjmp (i : instr) : bool := match i with INS_TJMP => true | _ => false end.

(** The conditional jumps pop the condition and go to their target exactly when
    it is true (TJMP) or false (FJMP). *)
Theorem C47_jumps : forall P H (ops : hops P H) prog s i target p rest w,
  i = INS_TJMP \/ i = INS_FJMP ->
  at_ins prog (pc s) (I1 i target) -> quiet s ->
  stack s = p :: rest -> h_view ops (m_heap s) p = Ok w ->
  exists pc', step_imp ops prog s = Ok (tt, after s pc' rest (m_heap s)) /\
    (falsy (plain w) -> pc' = if is_tjmp i then pc s + 5 else target) /\
    (~ falsy (plain w) -> pc' = if is_tjmp i then target else pc s + 5).
Proof.
  intros P H ops prog s i target p rest w Hi At Q Es Ev.
  exists (if is_tjmp i then if as_bool (plain w) then target else pc s + 5
          else if as_bool (plain w) then pc s + 5 else target).
  split.
  - rewrite (step_at ops prog s _ At). unfold mbind at 1.
    assert (D : do_ins ops prog (ins_op (I1 i target)) (with_cur s (t_set_pc (m_cur s) (pc s + 1))) =
      Ok (tt, with_cur s (t_set_stk (t_set_pc (m_cur s)
         (if is_tjmp i then if as_bool (plain w) then target else pc s + 5
          else if as_bool (plain w) then pc s + 5 else target)) rest))).
    { pose proof (operand1_at prog s i target At) as O.
      destruct Hi as [-> | ->]; cbn [ins_op do_ins is_tjmp]; unfold mbind at 1; rewrite O;
        unfold mbind; rewrite (pop_v_eq _ _ _ _ p rest) by exact Es;
        cbn [with_cur m_heap]; rewrite Ev; destruct (as_bool (plain w)); reflexivity. }
    rewrite D. rewrite finish_quiet by exact Q. reflexivity.
  - pose proof (as_bool_falsy (plain w)) as F. destruct Hi as [-> | ->]; cbn [is_tjmp];
    (destruct (as_bool (plain w)); [split; [intros X; apply F in X; discriminate|reflexivity]|
      split; [reflexivity|intros X; exfalso; apply X, F; reflexivity]]).
Qed.

Print Assumptions C43_add_sub_mul.
Print Assumptions C43_div_mod.
Print Assumptions C43_div_overflow.
Print Assumptions C43_divide_by_zero.
Print Assumptions C44_binary_total.
Print Assumptions C44_unary_total.
Print Assumptions C45_integer_order.
Print Assumptions C45_string_equality.
Print Assumptions C45_none_equality.
Print Assumptions C45_equality_symmetric.
Print Assumptions C45_equality_reflexive.
Print Assumptions C45_mixed_equality_rounds.
Print Assumptions C46_concat_left.
Print Assumptions C46_concat_right.
Print Assumptions C46_integer_text.
Print Assumptions C46_not_associative.
Print Assumptions C47_logic.
Print Assumptions C47_jumps.
