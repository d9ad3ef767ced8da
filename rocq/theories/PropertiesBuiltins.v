(** Builtin functions: C69-C73. *)
From Coq Require Import ZArith List Bool Lia ZifyBool.
From Coq Require Import Floats.SpecFloat.
From Verif Require Import Base BaseFacts F32 F32Facts Instr InstrSpec InstrProofs Program VM Gc GcProofs GcSpec
  Host Demo VmSpec VmFacts RunFacts PropertiesOps PropertiesMem PropertiesRun PropertiesSched.
Import ListNotations.
Open Scope Z_scope.

(** Calling builtin [f] with one argument of value [v] replaces it by one new
    scalar [c]; raises [e]; or is undefined. *)
Definition returns1 (f : sysfn) (v : pv) (c : scell) : Prop :=
  forall P H (ops : hops P H) prog s n p w rest h q,
    sys_state prog s f n (p :: rest) -> h_view ops (m_heap s) p = Ok w -> plain w = v ->
    h_newS ops (m_heap s) c = Ok (h, q) ->
    step_imp ops prog s = Ok (tt, after s (pc s + 9) (q :: rest) h).
Definition fails1 (f : sysfn) (v : pv) (e : terr) : Prop :=
  forall P H (ops : hops P H) prog s n p w rest,
    sys_state prog s f n (p :: rest) -> h_view ops (m_heap s) p = Ok w -> plain w = v ->
    step_imp ops prog s = Ok (tt, failed s (pc s + 9) rest e).
Definition aborts1 (f : sysfn) (v : pv) (x : stuck) : Prop :=
  forall P H (ops : hops P H) prog s n p w rest,
    sys_state prog s f n (p :: rest) -> h_view ops (m_heap s) p = Ok w -> plain w = v ->
    step_imp ops prog s = Stuck x.
(** Two arguments [a], [b], the second on top of the stack. *)
Definition returns2 (f : sysfn) (a b : pv) (c : scell) : Prop :=
  forall P H (ops : hops P H) prog s n p1 w1 p2 w2 rest h q,
    sys_state prog s f n (p2 :: p1 :: rest) ->
    h_view ops (m_heap s) p1 = Ok w1 -> plain w1 = a ->
    h_view ops (m_heap s) p2 = Ok w2 -> plain w2 = b ->
    h_newS ops (m_heap s) c = Ok (h, q) ->
    step_imp ops prog s = Ok (tt, after s (pc s + 9) (q :: rest) h).
Definition fails2 (f : sysfn) (a b : pv) (e : terr) : Prop :=
  forall P H (ops : hops P H) prog s n p1 w1 p2 w2 rest,
    sys_state prog s f n (p2 :: p1 :: rest) ->
    h_view ops (m_heap s) p1 = Ok w1 -> plain w1 = a ->
    h_view ops (m_heap s) p2 = Ok w2 -> plain w2 = b ->
    step_imp ops prog s = Ok (tt, failed s (pc s + 9) rest e).

Ltac sys1r :=
  intros; intros P H ops prog s nn p w rest h q St Ew Ev Nw;
  rewrite (sys_step _ _ _ _ _ _ _ _ St); destruct St as (Q & Es & _);
  cbn [run_sys]; unfold sys_float; dstate s; mcbv; subst; mcbv; rw Ew.
Ltac sys1f :=
  intros; intros P H ops prog s nn p w rest St Ew Ev;
  rewrite (sys_step _ _ _ _ _ _ _ _ St); destruct St as (Q & Es & _);
  cbn [run_sys]; unfold sys_float; dstate s; mcbv; subst; mcbv; rw Ew.
Ltac sys2r :=
  intros; intros P H ops prog s nn p1 w1 p2 w2 rest h q St Ew1 Ev1 Ew2 Ev2 Nw;
  rewrite (sys_step _ _ _ _ _ _ _ _ St); destruct St as (Q & Es & _);
  cbn [run_sys]; dstate s; mcbv; subst; mcbv; rw Ew2; rw Ew1.
Ltac sys2f :=
  intros; intros P H ops prog s nn p1 w1 p2 w2 rest St Ew1 Ev1 Ew2 Ev2;
  rewrite (sys_step _ _ _ _ _ _ _ _ St); destruct St as (Q & Es & _);
  cbn [run_sys]; dstate s; mcbv; subst; mcbv; rw Ew2; rw Ew1.
Ltac sys1 := first [sys1r | sys1f].
Ltac sys2 := first [sys2r | sys2f].
Ltac inj E :=
  cbn [plain] in E;
  match type of E with
  | PInt ?a = PInt ?b => assert (a = b) by congruence; subst a
  | PFlt ?a = PFlt ?b => assert (a = b) by congruence; subst a
  | PStr ?a = PStr ?b => assert (a = b) by congruence; subst a
  | PA ?a = PA ?b => assert (a = b) by congruence; subst b
  end.
Ltac done1 := rewrite finish_quiet' by reflexivity; reflexivity.

(** ** C69 Numeric builtins *)

(** abs *)
Theorem C69_abs : forall z,
  (z <> - 2 ^ 31 -> - 2 ^ 31 <= z < 2 ^ 31 -> returns1 F_abs (PInt z) (SInt (Z.abs z))) /\
  aborts1 F_abs (PInt (- 2 ^ 31)) SOverflow.
Proof.
  intros z. split.
  - intros N B. sys1. destruct w as [|[]|]; try discriminate Ev.
    inj Ev.
    destruct (z <? 0) eqn:L.
    + assert (Ck : chk32 (- z) = Ok (Z.abs z)) by (rewrite Z.abs_neq by lia; unfold chk32; rewrite (proj2 (in_i32_iff _)) by lia; reflexivity).
      rw Ck.
      rw Nw. done1.
    + replace (Z.abs z) with z in Nw by lia. rw Nw. done1.
  - sys1. destruct w as [|[]|]; try discriminate Ev.
    inj Ev. reflexivity.
Qed.
Theorem C69_abs_float : forall x,
  returns1 F_abs (PFlt x) (SFlt (if f_lt x f_zero then f_neg x else x)).
Proof.
  sys1. destruct w as [|[]|]; try discriminate Ev.
  inj Ev. rw Nw. done1.
Qed.
(** bitand: bit by bit, on the infinite two's complement expansion *)
Theorem C69_bitand : forall a b c,
  - 2 ^ 31 <= c < 2 ^ 31 -> (forall i, 0 <= i -> Z.testbit c i = Z.testbit a i && Z.testbit b i) ->
  returns2 F_bitand (PInt a) (PInt b) (SInt c).
Proof.
  intros a b c B T.
  assert (E : c = Z.land b a).
  { apply Z.bits_inj'. intros i I. rewrite Z.land_spec, T, andb_comm by auto. reflexivity. }
  clear T B. subst c. sys2. destruct w1 as [|[]|], w2 as [|[]|]; try discriminate.
  inj Ev1.
  inj Ev2. rw Nw. done1.
Qed.
(** len *)
Theorem C69_len : (forall n, returns1 F_len (PA n) (SInt n)) /\
                  (forall t, returns1 F_len (PStr t) (SInt (zlen t))).
Proof.
  split.
  - sys1. destruct w as [|[]|]; try discriminate Ev.
    inj Ev. rw Nw. done1.
  - sys1. destruct w as [|[]|]; try discriminate Ev.
    inj Ev. rw Nw. done1.
Qed.
(** chr *)
Theorem C69_chr : forall z,
  returns1 F_chr (PInt z) (SStr (if Z.eq_dec (z mod 256) 0 then [] else [z mod 256])).
Proof.
  sys1. destruct w as [|[]|]; try discriminate Ev.
  inj Ev.
  cbn [cstr]. destruct (Z.eq_dec (z mod 256) 0) as [D|D].
  - rewrite D. cbn [Z.eqb]. rw Nw. done1.
  - replace (z mod 256 =? 0) with false by lia. rw Nw. done1.
Qed.
(** new_array(n) with n > 0: a new array of n nones, or the arena is exhausted. *)
Theorem C69_new_array : forall cap fuel policy prog s k p rest n w,
  sys_state prog s F_new_array k (p :: rest) -> in_arena (m_heap s) ->
  gc_view (m_heap s) p = Ok w -> is_number (plain w) = true -> as_int (plain w) = Ok n -> 0 < n ->
  step_imp (gc_ops_with cap fuel policy) prog s = Stuck SOom \/
  exists h' a l, step_imp (gc_ops_with cap fuel policy) prog s = Ok (tt, after s (pc s + 9) (Some a :: rest) h') /\
    read (m_heap s) a = None /\ read h' a = Some (KA l) /\ zlen l = n /\ (forall i, 0 <= i < n -> znth l i = Some None) /\
    (forall b c, read (m_heap s) b = Some c -> read h' b = Some c).
Proof.
  intros cap fuel policy prog s k p rest n w St W Ew Nu An Np.
  rewrite (sys_step _ _ _ _ _ _ _ _ St). destruct St as (Q & Es & _).
  assert (L : (n <=? 0) = false) by lia.
  cbn [run_sys]. dstate s. mcbv. subst stk bps. cbn [h_view gc_ops_with h_newA h_null]. mcbv. unfold ptr in *.
  rw Ew. rw Nu. rw An. rw L. unfold gc_newA, new_cell.
  assert (Z : zlen (zrepeat (None : ptr) n) = n) by (unfold zlen, zrepeat; rewrite repeat_length; lia).
  unfold ptr in *.
  destruct (alloc cap h _) as [[h1 a]|] eqn:Al; [right|left; reflexivity].
  destruct (alloc_spec _ _ _ _ _ W Al) as (W1 & _ & Fr & Rn & Ot & _).
  exists h1, a, (zrepeat None n). rewrite finish_quiet' by reflexivity. split; [reflexivity|].
  split; [exact Fr|]. split; [exact Rn|]. split; [exact Z|]. split.
  - intros i B. destruct (znth_in (zrepeat (None : option addr) n) i) as (x & E); [now rewrite Z|].
    rewrite E. f_equal. apply znth_In in E. unfold zrepeat in E. now apply repeat_spec in E.
  - intros b c E. rewrite Ot; auto. intros ->. congruence.
Qed.
Theorem C69_new_array_bad_size : forall n v, is_number v = true -> as_int v = Ok n -> n <= 0 ->
  fails1 F_new_array v e_bad_argument.
Proof.
  intros n v Nu An L. assert (Lb : (n <=? 0) = true) by lia. sys1. rw Nu. rw An. rw Lb. done1.
Qed.

(** The kinds of argument each builtin accepts; all others raise
    e_bad_argument and consume the argument. *)
Definition accepts (f : sysfn) (v : pv) : bool :=
  match f, v with
  | F_len, PA _ | F_len, PStr _ | F_chr, PInt _ => true
  | F_len, _ | F_chr, _ => false
  | _, _ => is_number v
  end.
Definition numeric1 (f : sysfn) : Prop :=
  In f [F_abs; F_len; F_chr; F_sin; F_cos; F_tan; F_round; F_floor; F_ceil; F_sqrt; F_new_array; F_wait].
Theorem C69_wrong_kind : forall f v, numeric1 f -> accepts f v = false -> fails1 f v e_bad_argument.
Proof.
  intros f v Nf A. unfold numeric1 in Nf. cbn [In] in Nf.
  repeat (destruct Nf as [<-|Nf]; [|]); try contradiction;
    sys1; destruct w as [|[]|]; cbn in A; try discriminate A; cbn [plain is_number]; done1.
Qed.
Theorem C69_wrong_kind2 : forall a b,
  (is_number a && is_number b = false ->
     fails2 F_min a b e_bad_argument /\ fails2 F_max a b e_bad_argument) /\
  ((forall x y, a = PInt x -> b = PInt y -> False) -> fails2 F_bitand a b e_bad_argument).
Proof.
  intros a b. split; [intros A; split|intros A].
  - sys2. rewrite andb_comm in A. rw A. done1.
  - sys2. rewrite andb_comm in A. rw A. done1.
  - sys2. destruct w2 as [|[]|], w1 as [|[]|]; try done1. exfalso. eapply A; reflexivity.
Qed.

(** ** C70 min and max *)
Theorem C70_min_max : forall a b x y,
  is_number a = true -> is_number b = true -> as_float a = Ok x -> as_float b = Ok y ->
  exists lo hi, returns2 F_min a b (SFlt lo) /\ returns2 F_max a b (SFlt hi) /\
    (lo = x \/ lo = y) /\ (hi = x \/ hi = y) /\
    (is_nan x = false -> is_nan y = false ->
     f_leb lo x = true /\ f_leb lo y = true /\ f_leb x hi = true /\ f_leb y hi = true) /\
    (is_nan x = true \/ is_nan y = true -> lo = x /\ hi = x).
Proof.
  intros a b x y Na Nb Ax Ay. exists (if f_lt y x then y else x), (if f_lt x y then y else x).
  split; [|split; [|split; [|split; [|split]]]].
  - sys2. rewrite Na, Nb. cbn [andb]. rw Ay. rw Ax. rw Nw. done1.
  - sys2. rewrite Na, Nb. cbn [andb]. rw Ay. rw Ax. rw Nw. done1.
  - destruct (f_lt y x); auto.
  - destruct (f_lt x y); auto.
  - intros Nx Ny. destruct (f_lt y x) eqn:E1, (f_lt x y) eqn:E2;
      auto 10 using f_not_lt, f_lt_leb, f_leb_refl.
  - intros N. assert (G : f_lt y x = false /\ f_lt x y = false).
    { unfold f_lt, SFltb. rewrite (proj2 (SFcompare_nan x y)) by tauto. rewrite (proj2 (SFcompare_nan y x)) by tauto. auto. }
    destruct G as [-> ->]. auto.
Qed.
(** On integers below 2^24 in magnitude the float denotes the smaller (larger)
    one exactly. *)
Theorem C70_small_integers : forall a b, small a -> small b ->
  exists lo hi, returns2 F_min (PInt a) (PInt b) (SFlt lo) /\ returns2 F_max (PInt a) (PInt b) (SFlt hi) /\
    denotes lo (Z.min a b) /\ denotes hi (Z.max a b).
Proof.
  intros a b Sa Sb.
  exists (if f_lt (f_of_int b) (f_of_int a) then f_of_int b else f_of_int a),
         (if f_lt (f_of_int a) (f_of_int b) then f_of_int b else f_of_int a).
  split; [|split; [|split]].
  - sys2. rewrite Ev1, Ev2. cbn [is_number andb as_float]. rw Nw. done1.
  - sys2. rewrite Ev1, Ev2. cbn [is_number andb as_float]. rw Nw. done1.
  - unfold f_lt, SFltb. rewrite (f_of_int_compare b a) by auto.
    destruct (Z.compare_spec b a).
    + rewrite Z.min_l by lia. now apply f_of_int_denotes.
    + rewrite Z.min_r by lia. now apply f_of_int_denotes.
    + rewrite Z.min_l by lia. now apply f_of_int_denotes.
  - unfold f_lt, SFltb. rewrite (f_of_int_compare a b) by auto.
    destruct (Z.compare_spec a b).
    + rewrite Z.max_l by lia. now apply f_of_int_denotes.
    + rewrite Z.max_r by lia. now apply f_of_int_denotes.
    + rewrite Z.max_l by lia. now apply f_of_int_denotes.
Qed.
(** Finding: above that the result can differ from both arguments. *)
Theorem C70_large_integers_differ :
  exists a b hi, returns2 F_max (PInt a) (PInt b) (SFlt hi) /\ - 2 ^ 31 <= a < 2 ^ 31 /\ - 2 ^ 31 <= b < 2 ^ 31 /\
    exists z, denotes hi z /\ z <> a /\ z <> b.
Proof.
  exists 16777217, 0, (f_of_int 16777217). split; [|split; [lia|split; [lia|]]].
  - sys2. rewrite Ev1, Ev2. cbn [is_number andb as_float].
    replace (f_lt (f_of_int 0) (f_of_int 16777217)) with true by reflexivity.
    replace (f_lt (f_of_int 16777217) (f_of_int 0)) with false by reflexivity.
    match type of Nw with ?l = _ => match goal with |- context [h_newS ops ?h ?c] => change (h_newS ops h c) with l end end.
    rw Nw. done1.
  - exists 16777216. split; [vm_compute; reflexivity|lia].
Qed.

(** ** C73 floor, ceil and round *)
Theorem C73_rounding : forall v x, is_number v = true -> as_float v = Ok x ->
  finite x -> f_valid x = true ->
  (exists y z, returns1 F_floor v (SFlt y) /\ denotes y z /\
     z * f_den x <= f_num x < (z + 1) * f_den x) /\
  (exists y z, returns1 F_ceil v (SFlt y) /\ denotes y z /\
     (z - 1) * f_den x < f_num x <= z * f_den x) /\
  (exists y z, returns1 F_round v (SFlt y) /\ denotes y z /\
     2 * Z.abs (f_num x - z * f_den x) <= f_den x /\
     (2 * Z.abs (f_num x - z * f_den x) = f_den x -> Z.abs (f_num x) < Z.abs (z * f_den x))).
Proof.
  intros v x Nv Av Fi Va.
  assert (G : forall f k, (f, k) = (F_floor, f_floor) \/ (f, k) = (F_ceil, f_ceil) \/ (f, k) = (F_round, f_round) ->
              returns1 f v (SFlt (k x))).
  { intros f k [E|[E|E]]; injection E as -> ->; sys1; rw Nv; rw Av; rw Nw; done1. }
  split; [|split].
  - destruct (floor_spec x Fi Va) as (z & D & B). exists (f_floor x), z. split; auto.
  - destruct (ceil_spec x Fi Va) as (z & D & B). exists (f_ceil x), z. split; auto.
  - destruct (round_spec x Fi Va) as (z & D & B). exists (f_round x), z. split; auto.
Qed.
(** 2.5 and -2.5 *)
Example C73_example :
  let x := S754_finite false 10485760 (-22) in
  let y := S754_finite true 10485760 (-22) in
  f_valid x = true /\ f_num x * 2 = 5 * f_den x /\
  denotes (f_floor x) 2 /\ denotes (f_ceil x) 3 /\ denotes (f_round x) 3 /\
  denotes (f_floor y) (-3) /\ denotes (f_ceil y) (-2) /\ denotes (f_round y) (-3).
Proof. vm_compute. repeat split. Qed.

(** A call of abs. *)
Definition abs_prog : program_t :=
  Prog [] [Sysc [97] (Some F_abs)] [demo_main]
    (asm [I1 INS_NEW_INT (-7); I2 INS_SCALL 1 0; I1 INS_NEW_SCALL 0; I1 INS_ICALL 0]) [] [].
Example C69_example :
  match resume (gc_ops 5) abs_prog 1 demo_state with
  | Ok (_, s) =>
      sys_state abs_prog s F_abs 1 [Some (true, 0)] /\ gc_view (m_heap s) (Some (true, 0)) = Ok (WS (SInt (-7))) /\
      exists h q, h_newS (gc_ops 5) (m_heap s) (SInt 7) = Ok (h, q)
  | _ => False end.
Proof.
  destruct (resume (gc_ops 5) abs_prog 1 demo_state) as [[b s]| |] eqn:E; vm_compute in E; try discriminate.
  match type of E with Ok (_, ?x) = Ok _ => assert (x = s) as <- by congruence end.
  split.
  - split; [reflexivity|]. split; [reflexivity|]. exists 0, [97]. split; [|reflexivity]. unfold at_ins.
    split; [vm_compute; reflexivity|]. split; [vm_compute; discriminate|]. split; [repeat split; vm_compute; congruence|].
    eexists. split; vm_compute; reflexivity.
  - split; [reflexivity|]. do 2 eexists. reflexivity.
Qed.

(** ** C71 Registered and resolved consistently *)

(** [f] takes [k] arguments, or as many as it is given when [k] is negative:
    whenever a call of it succeeds, exactly the arguments have been replaced by
    one result, whatever lies below them, and the call frames are unchanged. *)
Definition takes (f : sysfn) (k : Z) : Prop :=
  forall P H (ops : hops P H) prog nargs s s' args rest,
    run_sys ops prog f nargs s = Ok (tt, s') -> t_err (m_cur s') = None ->
    stack s = args ++ rest -> zlen args = (if k <? 0 then nargs else k) ->
    exists q, stack s' = q :: rest /\ t_frs (m_cur s') = t_frs (m_cur s) /\ pc s' = pc s.

Section Effects.
  Context {P H : Type}.
  Definition mono {A} (m : @M P H A) : Prop :=
    forall s a s', m s = Ok (a, s') -> t_err (m_cur s') = None -> t_err (m_cur s) = None.
  Definition eff {A} (i o : nat) (m : @M P H A) : Prop :=
    mono m /\ forall s a s', m s = Ok (a, s') -> t_err (m_cur s') = None ->
      forall args rest, stack s = args ++ rest -> length args = i ->
      exists outs, stack s' = outs ++ rest /\ length outs = o /\ t_frs (m_cur s') = t_frs (m_cur s) /\ pc s' = pc s.
  Definition fatal {A} (m : @M P H A) : Prop := forall s a s', m s = Ok (a, s') -> t_err (m_cur s') <> None.

  Lemma eff_fatal : forall A i o (m : M A), fatal m -> eff i o m.
  Proof. intros A i o m F. split; intros s a s' E N; exfalso; eapply F; eauto. Qed.
  Lemma fatal_raise : forall e, fatal (raise e).
  Proof.
    intros e s a s' E. unfold raise, mod_cur in E.
    match type of E with Ok (_, ?y) = Ok (_, s') => assert (y = s') as <- by congruence end. discriminate.
  Qed.
  Lemma fatal_bind : forall A B (m : M A) (k : A -> M B), fatal m -> (forall a, mono (k a)) -> fatal (mbind m k).
  Proof.
    intros A B m k F K s b s' E N. apply mbind_ok in E. destruct E as (a & s1 & E1 & E2).
    eapply F; [exact E1|]. eapply K; eauto.
  Qed.
  Lemma eff_bind : forall A B i j o (m : M A) (k : A -> M B), eff i 0 m -> (forall a, eff j o (k a)) -> eff (i + j) o (mbind m k).
  Proof.
    intros A B i j o m k [Mm Em] K. split.
    - intros s b s' E N. apply mbind_ok in E. destruct E as (a & s1 & E1 & E2).
      eapply Mm; [exact E1|]. destruct (K a) as [Mk _]. eapply Mk; eauto.
    - intros s b s' E N args rest S L. apply mbind_ok in E. destruct E as (a & s1 & E1 & E2).
      destruct (K a) as [Mk Ek]. pose proof (Mk _ _ _ E2 N) as N1.
      rewrite <- (firstn_skipn i args), <- app_assoc in S.
      destruct (Em _ _ _ E1 N1 _ _ S) as (outs & S1 & L1 & F1 & P1); [rewrite firstn_length; lia|].
      destruct outs; [|discriminate]. cbn [app] in S1.
      destruct (Ek _ _ _ E2 N _ _ S1) as (outs & S2 & L2 & F2 & P2); [rewrite skipn_length; lia|].
      exists outs. repeat split; auto; congruence.
  Qed.
  Lemma eff_bind_out : forall A B o (m : M A) (k : A -> M B), eff 0 o m -> (forall a, eff 0 0 (k a)) -> eff 0 o (mbind m k).
  Proof.
    intros A B o m k [Mm Em] K. split.
    - intros s b s' E N. apply mbind_ok in E. destruct E as (a & s1 & E1 & E2).
      eapply Mm; [exact E1|]. destruct (K a) as [Mk _]. eapply Mk; eauto.
    - intros s b s' E N args rest S L. apply mbind_ok in E. destruct E as (a & s1 & E1 & E2).
      destruct (K a) as [Mk Ek]. pose proof (Mk _ _ _ E2 N) as N1.
      destruct (Em _ _ _ E1 N1 _ _ S L) as (outs & S1 & L1 & F1 & P1).
      destruct (Ek _ _ _ E2 N [] _ S1 eq_refl) as (o2 & S2 & L2 & F2 & P2).
      destruct o2; [|discriminate]. exists outs. repeat split; auto; congruence.
  Qed.
  Lemma eff_stuck : forall A i o x, eff (A := A) i o (lift (Stuck x)).
  Proof. intros; split; intros ? ? ? E; discriminate. Qed.
  (** Computations that do not touch the current thread. *)
  Lemma eff_same : forall A (m : M A), (forall s a s', m s = Ok (a, s') -> m_cur s' = m_cur s) -> eff 0 0 m.
  Proof.
    intros A m Q. split; intros s a s' E N.
    - now rewrite <- (Q _ _ _ E).
    - intros args rest S L. destruct args; [|discriminate]. exists []. unfold stack, pc in *. rewrite (Q _ _ _ E).
      cbn [app] in *. auto.
  Qed.
  Lemma eff_lift : forall A (r : res A), eff 0 0 (lift r).
  Proof. intros A r. apply eff_same. intros s a s' E. destruct r; cbn in E; congruence. Qed.
  Lemma eff_mget : forall A (f : mst P H -> A), eff 0 0 (mget f).
  Proof. intros A f. apply eff_same. unfold mget. congruence. Qed.
  Lemma eff_ret : forall A (x : A), eff 0 0 (ret x).
  Proof. intros A f. apply eff_same. unfold ret. congruence. Qed.
  Lemma eff_world : forall w, eff 0 0 (set_world w).
  Proof.
    intros w. apply eff_same. intros s a s' E. unfold set_world in E.
    match type of E with Ok (_, ?y) = Ok (_, s') => assert (y = s') as <- by congruence end. reflexivity.
  Qed.
  Lemma eff_add_thread : forall t, eff 0 0 (add_thread t).
  Proof.
    intros w. apply eff_same. intros s a s' E. unfold add_thread in E.
    match type of E with Ok (_, ?y) = Ok (_, s') => assert (y = s') as <- by congruence end. reflexivity.
  Qed.
  Lemma eff_cur : forall f, (forall t, t_stk (f t) = t_stk t /\ t_frs (f t) = t_frs t /\ t_pc (f t) = t_pc t /\ t_err (f t) = t_err t) ->
    eff 0 0 (mod_cur f).
  Proof.
    intros f Q. split; intros s a s' E N; unfold mod_cur in E;
      match type of E with Ok (_, ?y) = Ok (_, s') => assert (y = s') as <- by congruence end;
      destruct (Q (m_cur s)) as (Q1 & Q2 & Q3 & Q4).
    - cbn in N. congruence.
    - intros args rest S L. destruct args; [|discriminate]. exists []. unfold stack, pc in *. cbn [m_cur app] in *.
      rewrite Q1, Q2, Q3. auto.
  Qed.
  Lemma eff_push : forall p, eff 0 1 (push p).
  Proof.
    intros p. split; intros s a s' E N; unfold push, mod_cur in E;
      match type of E with Ok (_, ?y) = Ok (_, s') => assert (y = s') as <- by congruence end.
    - exact N.
    - intros args rest S L. destruct args; [|discriminate]. exists [p]. unfold stack, pc in *. cbn in *. rewrite S. auto.
  Qed.
  Lemma eff_pop : eff 1 0 (@pop P H).
  Proof.
    split; intros s a s' E N; unfold pop in E; unfold stack, pc in *; destruct (t_stk (m_cur s)) as [|p r] eqn:T; try discriminate;
      unfold mbind, mod_cur, ret in E;
      match type of E with Ok (_, ?y) = Ok (_, s') => assert (y = s') as <- by congruence end.
    - exact N.
    - intros args rest S L. destruct args as [|x [|]]; try discriminate. exists []. cbn in *.
      repeat split; auto. congruence.
  Qed.
  Lemma eff_pop_n : forall n, eff n 0 (@pop_n P H n).
  Proof.
    induction n as [|n IH]; cbn [pop_n]; [apply eff_ret|].
    change (S n) with (1 + n)%nat. apply eff_bind; [apply eff_pop|]. intros p.
    replace n with (n + 0)%nat at 1 by lia. apply eff_bind; [exact IH|]. intros l. apply eff_ret.
  Qed.
  Variable ops : hops P H.
  Lemma eff_deref : forall p, eff 0 0 (deref ops p).
  Proof.
    intros p. apply eff_same. intros s a s' E. unfold deref, lift in E. destruct (h_view ops (m_heap s) p); congruence.
  Qed.
  Lemma eff_pop_v : eff 1 0 (pop_v ops).
  Proof. change 1%nat with (1 + 0)%nat. apply eff_bind; [apply eff_pop|]. intros p. apply eff_deref. Qed.
  Lemma eff_new_s : forall c, eff 0 0 (new_s ops c).
  Proof.
    intros c. apply eff_same. intros s a s' E. unfold new_s in E. destruct (h_newS ops (m_heap s) c) as [[h p]| |]; try discriminate.
    unfold mbind, set_heap, ret in E.
    match type of E with Ok (_, ?y) = Ok (_, s') => assert (y = s') as <- by congruence end. reflexivity.
  Qed.
  Lemma eff_new_a : forall l, eff 0 0 (new_a ops l).
  Proof.
    intros c. apply eff_same. intros s a s' E. unfold new_a in E. destruct (h_newA ops (m_heap s) c) as [[h p]| |]; try discriminate.
    unfold mbind, set_heap, ret in E.
    match type of E with Ok (_, ?y) = Ok (_, s') => assert (y = s') as <- by congruence end. reflexivity.
  Qed.
  Lemma eff_push_s : forall c, eff 0 1 (push_s ops c).
  Proof. intros c. change 0%nat with (0 + 0)%nat. apply eff_bind; [apply eff_new_s|]. intros. apply eff_push. Qed.
  Lemma eff_raise : forall i o e, eff i o (raise e).
  Proof. intros. apply eff_fatal, fatal_raise. Qed.
  Lemma eff_raise_push : forall i o e c, eff i o (mbind (raise e) (fun _ => push_s ops c)).
  Proof. intros. apply eff_fatal, fatal_bind; [apply fatal_raise|]. intros. apply eff_push_s. Qed.
End Effects.

Lemma eff_copy_all : forall P H (ops : hops P H) l, eff 0 0 (copy_all ops l).
Proof.
  intros P H ops. induction l as [|p l IH]; cbn [copy_all]; [apply eff_ret|].
  change 0%nat with (0 + 0)%nat at 1. apply eff_bind; [|intros; change 0%nat with (0 + 0)%nat at 1; apply eff_bind; [exact IH|intros; apply eff_ret]].
  unfold gc_copy. 
  change 0%nat with (0 + 0)%nat at 1. apply eff_bind; [apply eff_deref|]. intros w.
  destruct w as [|[]|]; first [apply eff_ret | apply eff_new_s | apply eff_stuck].
Qed.

(** The number of arguments of each function, as its body pops them. *)
Definition arity (f : sysfn) : option nat :=
  match f with
  | F_min | F_max | F_bitand => Some 2%nat
  | F_getc | F_gets | F_rand => Some 0%nat
  | F_new_thread => None
  | F_host _ n => Some n
  | _ => Some 1%nat
  end.

Lemma eff_q : forall P H A B j o (m : @M P H A) (k : A -> @M P H B), eff 0 0 m -> (forall a, eff j o (k a)) -> eff j o (mbind m k).
Proof. intros P H A B j o m k. apply (eff_bind A B 0). Qed.
Lemma eff_p : forall P H A B j o (m : @M P H A) (k : A -> @M P H B), eff 1 0 m -> (forall a, eff j o (k a)) -> eff (S j) o (mbind m k).
Proof. intros P H A B j o m k. apply (eff_bind A B 1). Qed.
Ltac eff1 :=
  first
    [ apply eff_push_s | apply eff_push | apply eff_raise | apply eff_raise_push | apply eff_stuck | apply eff_ret
    | apply eff_lift | apply eff_mget | apply eff_world | apply eff_new_a | apply eff_copy_all | apply eff_add_thread
    | apply eff_p; [apply eff_pop_v|intros ?w]
    | apply eff_q; [first [apply eff_lift | apply eff_mget | apply eff_world | apply eff_new_a | apply eff_copy_all | apply eff_add_thread
        | apply eff_cur; intros []; cbn; auto]|intros]
    | apply eff_bind_out; [apply eff_push_s|intros]
    | apply eff_cur; intros []; cbn; now auto
    | match goal with |- eff _ _ (match ?x with _ => _ end) => destruct x end
    | match goal with |- eff _ _ (let _ := _ in _) => cbv zeta end ].
Lemma eff_pop_hargs : forall P H (ops : hops P H) n, eff n 0 (pop_hargs ops n).
Proof.
  intros P H ops. induction n as [|n IH]; cbn [pop_hargs]; [apply eff_ret|]. apply eff_p; [apply eff_pop_v|intros w].
  replace n with (n + 0)%nat at 1 by lia. apply eff_bind; [exact IH|intros; apply eff_ret].
Qed.
Lemma eff_sys : forall P H (ops : hops P H) prog nargs f n, arity f = Some n -> eff n 1 (run_sys ops prog f nargs).
Proof.
  intros P H ops prog nargs f n A.
  destruct f; cbn [arity] in A; try discriminate A;
    match type of A with Some ?k = Some n => assert (n = k) as -> by congruence end; clear A; cbn [run_sys];
    unfold sys_float, push_none; repeat eff1.
  replace n0 with (n0 + 0)%nat at 1 by lia. apply eff_bind; [apply eff_pop_hargs|intros]. unfold push_hret, push_none. repeat eff1.
Qed.
Lemma eff_new_thread : forall P H (ops : hops P H) prog n, eff (S n) 1 (run_sys ops prog F_new_thread (Z.of_nat (S n))).
Proof.
  intros P H ops prog n. cbn [run_sys]. replace (Z.of_nat (S n) <=? 0) with false by lia.
  replace (Z.to_nat (Z.of_nat (S n) - 1)) with n by lia.
  replace (S n) with (n + 1)%nat at 1 by lia. apply eff_bind; [apply eff_pop_n|]. intros l. unfold new_thread.
  do 3 eff1. all: repeat eff1. 
  apply eff_q; [|intros; apply eff_push_s]. repeat eff1.
Qed.
Lemma takes_arity : forall f n, arity f = Some n -> takes f (Z.of_nat n).
Proof.
  intros f n A P H ops prog nargs s s' args rest E N S L.
  destruct (eff_sys P H ops prog nargs f n A) as [_ G].
  destruct (G _ _ _ E N _ _ S) as (outs & S' & L' & F & Q).
  { unfold zlen in L. destruct (_ <? 0) eqn:B; lia. }
  destruct outs as [|q [|]]; try discriminate. exists q. auto.
Qed.
Lemma takes_new_thread : takes F_new_thread (-1).
Proof.
  intros P H ops prog nargs s s' args rest E N S L. cbn in L. unfold zlen in L. subst nargs.
  destruct args as [|p args].
  { exfalso. revert N. eapply fatal_raise. cbn in E. exact E. }
  destruct (eff_new_thread P H ops prog (length args)) as [_ G].
  destruct (G _ _ _ E N _ _ S eq_refl) as (outs & S' & L' & F & Q).
  destruct outs as [|q [|]]; try discriminate. exists q. auto.
Qed.

Definition bind_one (s : syscall_t) (x : bytes * sysfn) : syscall_t :=
  if bytes_eqb (s_name s) (fst x) then Sysc (s_name s) (Some (snd x)) else s.
Lemma fold_resolve : forall m p i,
  znth (p_syscalls (fold_left (fun q x => snd (syscall_resolve q (fst x) (snd x))) m p)) i =
  option_map (fun s => fold_left bind_one m s) (znth (p_syscalls p) i).
Proof.
  induction m as [|x m IH]; intros p i; cbn [fold_left].
  - destruct (znth _ _); reflexivity.
  - rewrite IH. cbn [syscall_resolve snd p_syscalls]. rewrite znth_map. destruct (znth (p_syscalls p) i); reflexivity.
Qed.
Definition bind_builtin (s : syscall_t) : syscall_t :=
  match map_find builtin_map (s_name s) with Some f => Sysc (s_name s) (Some f) | None => s end.
Lemma builtins_resolve_nth : forall p i,
  znth (p_syscalls (builtins_resolve p)) i = option_map bind_builtin (znth (p_syscalls p) i).
Proof. intros p i. cbn [builtins_resolve p_syscalls]. apply znth_map. Qed.
Lemma driver_resolve_nth : forall p i,
  znth (p_syscalls (driver_resolve p)) i =
  option_map (fun s => bind_builtin (fold_left bind_one driver_map s)) (znth (p_syscalls p) i).
Proof.
  intros p i. unfold driver_resolve. rewrite builtins_resolve_nth, fold_resolve. destruct (znth (p_syscalls p) i); reflexivity.
Qed.

(** The names the compiler is told about, with their argument counts, and the
    functions the loader binds them to. *)
Theorem C71_registered_arity : forall p q name k,
  (q = builtins_resolve p /\ In (name, k) builtin_arity) \/
  (q = driver_resolve p /\ In (name, k) (driver_arity ++ builtin_arity)) ->
  forall i s, znth (p_syscalls p) i = Some s -> s_name s = name ->
  exists f, znth (p_syscalls q) i = Some (Sysc name (Some f)) /\ takes f k.
Proof.
  intros p q name k D i s E N. destruct s as [nm c]. cbn [s_name] in N. subst nm.
  assert (B : forall g, g = bind_builtin /\ In (name, k) builtin_arity \/
                        g = (fun s => bind_builtin (fold_left bind_one driver_map s)) /\ In (name, k) (driver_arity ++ builtin_arity) ->
     exists f, g (Sysc name c) = Sysc name (Some f) /\ takes f k).
  { intros g [[-> I]|[-> I]]; unfold builtin_arity, driver_arity in I; cbn [In app] in I;
    repeat (destruct I as [I|I]; [pose proof (f_equal fst I) as In_; pose proof (f_equal snd I) as Ik_; cbn [fst snd] in In_, Ik_;
      clear I; subst name k; eexists; split; [vm_compute; reflexivity|first [refine (takes_arity _ 1%nat _); reflexivity | refine (takes_arity _ 2%nat _); reflexivity
       | refine (takes_arity _ 0%nat _); reflexivity | exact takes_new_thread]]|]); contradiction. }
  destruct D as [[-> I]|[-> I]].
  - rewrite builtins_resolve_nth, E. destruct (B _ (or_introl (conj eq_refl I))) as (f & Q & T).
    cbn [option_map]. rewrite Q. eauto.
  - rewrite driver_resolve_nth, E. destruct (B _ (or_intror (conj eq_refl I))) as (f & Q & T).
    cbn [option_map]. rewrite Q. eauto.
Qed.
(** A registered name is bound to the function it names, and to no other. *)
Theorem C71_bound_to_its_function : forall p q name k,
  (q = builtins_resolve p /\ In (name, k) builtin_arity) \/
  (q = driver_resolve p /\ In (name, k) (driver_arity ++ builtin_arity)) ->
  forall i s, znth (p_syscalls p) i = Some s -> s_name s = name ->
  exists f, znth (p_syscalls q) i = Some (Sysc name (Some f)) /\
    In name (names_of f).
Proof.
  intros p q name k D i s E N. destruct s as [nm c]. cbn [s_name] in N. subst nm.
  assert (B : forall g, g = bind_builtin /\ In (name, k) builtin_arity \/
                        g = (fun s => bind_builtin (fold_left bind_one driver_map s)) /\ In (name, k) (driver_arity ++ builtin_arity) ->
     exists f, g (Sysc name c) = Sysc name (Some f) /\ In name (names_of f)).
  { intros g [[-> I]|[-> I]]; unfold builtin_arity, driver_arity in I; cbn [In app] in I;
    repeat (destruct I as [I|I]; [pose proof (f_equal fst I) as In_; cbn [fst] in In_;
      clear I; subst name; eexists; split; [vm_compute; reflexivity|vm_compute; tauto]|]); contradiction. }
  destruct D as [[-> I]|[-> I]].
  - rewrite builtins_resolve_nth, E. destruct (B _ (or_introl (conj eq_refl I))) as (f & Q & T).
    cbn [option_map]. rewrite Q. eauto.
  - rewrite driver_resolve_nth, E. destruct (B _ (or_intror (conj eq_refl I))) as (f & Q & T).
    cbn [option_map]. rewrite Q. eauto.
Qed.
Print Assumptions C71_bound_to_its_function.
(** Everything else is left alone. *)
Theorem C71_others_untouched : forall p q table,
  (q = builtins_resolve p /\ table = builtin_arity) \/ (q = driver_resolve p /\ table = driver_arity ++ builtin_arity) ->
  zlen (p_syscalls q) = zlen (p_syscalls p) /\
  (forall i s, znth (p_syscalls p) i = Some s -> ~ In (s_name s) (map fst table) -> znth (p_syscalls q) i = Some s) /\
  p_globals q = p_globals p /\ p_functions q = p_functions p /\
  p_code q = p_code p /\ p_lines q = p_lines p /\ p_strings q = p_strings p.
Proof.
  assert (NB : forall s, ~ In (s_name s) (map fst builtin_arity) -> bind_builtin s = s).
  { intros s N. unfold bind_builtin, map_find. destruct (find _ builtin_map) as [[n f]|] eqn:F; auto.
    apply find_some in F. destruct F as [I Q]. apply bytes_eqb_eq in Q. cbn [fst] in Q. subst n. exfalso. apply N.
    apply (in_map fst) in I. exact I. }
  assert (NF : forall m s, ~ In (s_name s) (map fst m) -> fold_left bind_one m s = s).
  { induction m as [|x m IH]; intros s N; cbn [fold_left]; auto. cbn [map In] in N.
    unfold bind_one at 2. destruct (bytes_eqb (s_name s) (fst x)) eqn:Q.
    - apply bytes_eqb_eq in Q. exfalso. apply N. auto.
    - apply IH. tauto. }
  assert (FL : forall m p, let q := fold_left (fun q x => snd (syscall_resolve q (fst x) (snd x))) m p in
      zlen (p_syscalls q) = zlen (p_syscalls p) /\ p_globals q = p_globals p /\ p_functions q = p_functions p /\
      p_code q = p_code p /\ p_lines q = p_lines p /\ p_strings q = p_strings p).
  { induction m as [|x m IH]; intros p; cbn [fold_left]; [auto 10|].
    destruct (IH (snd (syscall_resolve p (fst x) (snd x)))) as (A & B). cbv zeta. rewrite A. cbn [snd syscall_resolve] in *.
    destruct B as (-> & -> & -> & -> & ->). cbn. unfold zlen. rewrite map_length. auto 10. }
  intros p q table [[-> ->]|[-> ->]].
  - split; [cbn; unfold zlen; now rewrite map_length|]. split; [|cbn; auto 10]. intros i s E N.
    rewrite builtins_resolve_nth, E. cbn. f_equal. apply NB. exact N.
  - split; [|split].
    + cbn. unfold zlen. rewrite map_length. apply (FL driver_map p).
    + intros i s E N. rewrite driver_resolve_nth, E. cbn [option_map]. f_equal. rewrite map_app in N.
      rewrite NF; [apply NB; intros I; apply N, in_or_app; auto|]. intros I. apply N, in_or_app. left. exact I.
    + destruct (FL driver_map p) as (_ & R). cbv zeta in R. unfold driver_resolve. cbn [builtins_resolve p_globals p_functions p_code p_lines p_strings]. exact R.
Qed.

(** ** C72 Indirect calls of a builtin ignore the argument count *)

(** The instruction calls the value on top with [n] arguments; the value is the
    builtin [f].  Exactly the arguments the function itself takes are consumed,
    whatever [n] is. *)
Theorem C72_count_ignored : forall P H (ops : hops P H) prog s s' n k f nm p args rest,
  quiet s -> at_ins prog (pc s) (I1 INS_ICALL n) -> stack s = p :: args ++ rest ->
  h_view ops (m_heap s) p = Ok (WS (SSys k)) -> znth (p_syscalls prog) k = Some (Sysc nm (Some f)) ->
  arity f = Some (length args) ->
  step_imp ops prog s = Ok (tt, s') -> t_err (m_cur s') = None ->
  exists q, stack s' = q :: rest.
Proof.
  intros P H ops prog s s' n k f nm p args rest Q A Es Ep Ek Ar E N.
  rewrite (step_at _ _ _ _ A) in E. apply mbind_ok in E. destruct E as ([] & s1 & E & Fi).
  cbn [ins_op do_ins] in E. apply mbind_ok in E. destruct E as (o & s2 & E1 & E2).
  rewrite (operand1_at _ _ _ _ A) in E1.
  match type of E1 with Ok (_, ?y) = Ok (_, s2) => assert (y = s2) as <- by congruence end.
  apply mbind_ok in E2. destruct E2 as (w & s3 & E2 & E3).
  rewrite (pop_v_eq _ _ _ _ p (args ++ rest)) in E2 by exact Es. cbn [with_cur m_heap] in E2. rewrite Ep in E2.
  assert (w = WS (SSys k)) as -> by congruence.
  match type of E2 with Ok (_, ?y) = Ok (_, s3) => assert (y = s3) as <- by congruence end.
  unfold do_syscall in E3. rewrite Ek in E3.
  assert (M : t_stk (m_cur s') = t_stk (m_cur s1) /\ t_err (m_cur s') = t_err (m_cur s1)).
  { unfold finish_step, check_breakpoints, mbind, mod_cur in Fi. cbn [m_cur] in Fi.
    match type of Fi with Ok (_, ?y) = Ok (_, s') => assert (y = s') as <- by congruence end. cbn [m_cur].
    destruct s1 as [h g wd pre [] post]. cbn. destruct t_bps; auto. }
  destruct M as [M1 M2]. rewrite M2 in N.
  destruct (takes_arity _ _ Ar _ _ _ _ _ _ _ args rest E3 N) as (q & S1 & _); [reflexivity|unfold zlen; destruct (_ <? 0) eqn:B; lia|].
  exists q. unfold stack in *. rewrite M1. exact S1.
Qed.
(** So with too few arguments values of the caller are consumed. *)
Definition icall_prog : program_t :=
  Prog [] [Sysc [97] (Some F_abs)] [demo_main]
    (asm [I1 INS_NEW_INT 4; I1 INS_NEW_INT (-7); I1 INS_NEW_SCALL 0; I1 INS_ICALL 0]) [] [].
Theorem C72_refuted : exists prog (s s' : mst ptr heap) k x y q,
  quiet s /\ at_ins prog (pc s) (I1 INS_ICALL 0) /\
  stack s = [k; x; y] /\ gc_view (m_heap s) k = Ok (WS (SSys 0)) /\
  step_imp (gc_ops 5) prog s = Ok (tt, s') /\ t_err (m_cur s') = None /\ stack s' = [q; y].
Proof.
  exists icall_prog.
  destruct (resume (gc_ops 5) icall_prog 3 demo_state) as [[b s]| |] eqn:E; vm_compute in E; try discriminate.
  match type of E with Ok (_, ?x) = Ok _ => assert (x = s) by congruence end. clear E.
  destruct (step_imp (gc_ops 5) icall_prog s) as [[[] s']| |] eqn:E; pose proof E as E'; rewrite <- H in E'; vm_compute in E'; try discriminate.
  match type of E' with Ok (_, ?x) = Ok _ => assert (x = s') by congruence end. clear E'.
  exists s, s', (Some (true, 16)), (Some (true, 8)), (Some (true, 0)), (Some (true, 24)).
  split; [|split; [|split; [|split; [|split; [exact E|split]]]]].
  - subst s. reflexivity.
  - subst s. unfold at_ins. split; [vm_compute; reflexivity|]. split; [vm_compute; discriminate|]. split; [repeat split; vm_compute; congruence|].
    eexists. split; vm_compute; reflexivity.
  - subst s. reflexivity.
  - subst s. reflexivity.
  - subst s'. reflexivity.
  - subst s'. reflexivity.
Qed.

Print Assumptions C69_abs.
Print Assumptions C69_abs_float.
Print Assumptions C69_bitand.
Print Assumptions C69_len.
Print Assumptions C69_chr.
Print Assumptions C69_new_array.
Print Assumptions C69_new_array_bad_size.
Print Assumptions C69_wrong_kind.
Print Assumptions C69_wrong_kind2.
Print Assumptions C70_min_max.
Print Assumptions C70_small_integers.
Print Assumptions C70_large_integers_differ.
Print Assumptions C71_registered_arity.
Print Assumptions C71_others_untouched.
Print Assumptions C72_count_ignored.
Print Assumptions C72_refuted.
Print Assumptions C73_rounding.
