(** Safety of the parser: on a token list that ends with its only end-of-file
    token, the parser reads nothing past the end, never runs out of depth and
    trips no assert except when it has to name an [import] token. *)
From Coq Require Import ZArith List Bool Lia ZifyBool.
From Verif Require Import Base F32 Lexer Ast Source Parser ParseFacts.
Import ListNotations.
Open Scope nat_scope.

Lemma kind_eqb_eq a b : kind_eqb a b = true <-> a = b.
Proof.
  split; [|intros ->; destruct b; reflexivity].
  destruct a, b; cbn [kind_eqb]; congruence.
Qed.

(** The tokens left: the end of file is last and only there; [imp] records
    whether an [import] may still occur. *)
Fixpoint good (imp : Prop) (ts : list token) : Prop :=
  match ts with
  | [] => False
  | t :: r =>
      (kind_of (tk t) = K_IMPORT -> imp) /\
      (if kind_eqb (kind_of (tk t)) K_EOF then r = [] else good imp r)
  end.

(** No outcome but an answer, a compile error, or the abort on [import]. *)
Definition okout {A} (imp : Prop) (P : A -> Prop) (r : res A) : Prop :=
  match r with Ok a => P a | Err _ _ => True | Stuck x => x = SAssert /\ imp end.

Lemma okout_bind {A B} (imp : Prop) (P : A -> Prop) (Q : B -> Prop) m (k : A -> res B) :
  okout imp P m -> (forall a, P a -> okout imp Q (k a)) -> okout imp Q (bind m k).
Proof. destruct m; cbn [okout bind]; auto. Qed.

Lemma okout_weaken {A} (imp : Prop) (P Q : A -> Prop) m :
  okout imp P m -> (forall a, P a -> Q a) -> okout imp Q m.
Proof. destruct m; cbn [okout]; auto. Qed.

Definition len (s : pst) : nat := List.length (p_toks s).
Definition depth (s : pst) : nat := List.length (p_exp s).

(** Same stacks. *)
Definition same (s s' : pst) : Prop := p_ops s' = p_ops s /\ p_exp s' = p_exp s.

Lemma perr_ok {A} (imp : Prop) (P : A -> Prop) e l t :
  (kind_of (tk t) = K_IMPORT -> imp) -> okout imp P (perr e l t).
Proof. unfold perr. destruct (kind_of (tk t)); cbn [okout]; auto. Qed.

Lemma found_ok (imp : Prop) k s : good imp (p_toks s) -> k <> K_EOF ->
  okout imp (fun '(o, s') => good imp (p_toks s') /\ same s s' /\
     match o with Some t => S (len s') = len s /\ kind_of (tk t) = k | None => s' = s end)
   (found k s).
Proof.
  intros G NE. unfold found, ptype. destruct (p_toks s) as [|t r] eqn:E; [destruct G|].
  cbn [bind]. destruct (kind_eqb (kind_of (tk t)) k) eqn:K.
  - unfold pop. rewrite E. cbn [bind okout p_toks len]. unfold same, len. rewrite E.
    cbn [p_toks p_ops p_exp List.length].
    apply kind_eqb_eq in K. destruct G as [_ G].
    destruct (kind_eqb (kind_of (tk t)) K_EOF) eqn:K2.
    + apply kind_eqb_eq in K2. congruence.
    + auto.
  - cbn [okout]. rewrite E. unfold same. auto.
Qed.

Lemma popk_ok (imp : Prop) k s : good imp (p_toks s) -> k <> K_EOF ->
  (k = K_STRING \/ k = K_IMPORT -> imp) ->
  okout imp (fun '(t, s') => good imp (p_toks s') /\ same s s' /\ S (len s') = len s
               /\ kind_of (tk t) = k) (popk k s).
Proof.
  intros G NE HI. unfold popk.
  eapply okout_bind; [apply found_ok; eassumption|].
  intros [[t|] s1] (G1 & SM & H).
  - cbn [okout]. intuition.
  - destruct (p_toks s) as [|t r] eqn:E; [destruct G|].
    assert (okout imp (fun '(t, s') => good imp (p_toks s') /\ same s s' /\ S (len s') = len s
               /\ kind_of (tk t) = k) (perr E_unexpected_token (tk_line t) t)).
    { apply perr_ok. destruct G; auto. }
    destruct k; cbn [okout]; auto.
Qed.

Lemma pop_ok (imp : Prop) s : good imp (p_toks s) ->
  okout imp (fun '(t, s') => same s s' /\ S (len s') = len s /\
     (exists r, p_toks s = t :: r) /\ (kind_of (tk t) = K_IMPORT -> imp) /\
     (kind_of (tk t) <> K_EOF -> good imp (p_toks s'))) (pop s).
Proof.
  intros G. unfold pop. destruct (p_toks s) as [|t r] eqn:E; [destruct G|].
  cbn [okout p_toks]. unfold same, len. rewrite E. cbn [p_ops p_exp p_toks List.length].
  destruct G as [G1 G2]. split; [auto|]. split; [auto|]. split; [eauto|]. split; [exact G1|].
  intros N. destruct (kind_eqb (kind_of (tk t)) K_EOF) eqn:K; [|exact G2].
  apply kind_eqb_eq in K. congruence.
Qed.

Lemma ptype_ok (imp : Prop) s : good imp (p_toks s) ->
  okout imp (fun k => exists t r, p_toks s = t :: r /\ k = kind_of (tk t)) (ptype s).
Proof.
  intros G. unfold ptype. destruct (p_toks s) as [|t r]; [destruct G|].
  cbn [okout]. eauto.
Qed.

Lemma peek_ok (imp : Prop) s : good imp (p_toks s) ->
  okout imp (fun k => exists t r, p_toks s = t :: r /\ k = kind_of (tk t)) (peek s).
Proof.
  intros G. unfold peek. destruct (p_toks s) as [|t r]; [destruct G|].
  cbn [okout]. eauto.
Qed.

Lemma skip_eols_ok (imp : Prop) s : good imp (p_toks s) ->
  okout imp (fun s' => good imp (p_toks s') /\ same s s' /\ len s' <= len s) (skip_eols s).
Proof.
  intros G. unfold skip_eols.
  assert (H : forall ts l, good imp ts ->
            okout imp (fun '(ts', _) => good imp ts' /\ List.length ts' <= List.length ts)
              (skip_eols_from ts l)).
  { induction ts as [|t r IH]; intros l Gt; [destruct Gt|].
    cbn [skip_eols_from]. destruct (kind_eqb (kind_of (tk t)) K_EOL) eqn:K.
    - eapply okout_weaken.
      + apply IH. apply kind_eqb_eq in K. destruct Gt as [_ Gt]. rewrite K in Gt. exact Gt.
      + intros [a b] [? ?]. cbn [List.length]. split; [assumption|lia].
    - cbn [okout]. auto. }
  eapply okout_bind; [apply H; eassumption|].
  intros [ts l] [G1 L]. cbn [okout p_toks]. unfold same, len. cbn. auto.
Qed.

(** Number of binary operators on a stack. *)
Fixpoint nb (ops : list token) : nat :=
  match ops with
  | [] => 0
  | t :: r => match binop_of (kind_of (tk t)) with Some _ => S (nb r) | None => nb r end
  end.

Lemma reduce_while_ok (imp : Prop) q tide low base : List.length low = tide -> forall up es,
  base + nb up + 1 <= List.length es ->
  okout imp (fun '(ops', es') => exists up', ops' = up' ++ low /\
     base + nb up' + 1 <= List.length es' /\ (q = 0%Z -> up' = [])) 
    (reduce_while q tide (up ++ low) es).
Proof.
  intros LT. induction up as [|t r IH]; intros es H.
  - cbn [app]. destruct low as [|t r] eqn:E.
    + cbn [reduce_while okout]. exists []. cbn [app nb] in *. auto.
    + cbn [reduce_while]. replace (Nat.ltb tide (List.length (t :: r))) with false
        by (symmetry; apply Nat.ltb_ge; lia).
      cbn [andb okout]. exists []. cbn [app nb] in *. auto.
  - cbn [app reduce_while].
    replace (Nat.ltb tide (List.length (t :: r ++ low))) with true
      by (symmetry; apply Nat.ltb_lt; cbn [List.length]; rewrite app_length; lia).
    cbn [andb].
    destruct (negb (tprec t <? q)%Z) eqn:Q.
    + cbn [nb] in H. unfold op_reduce.
      destruct (binop_of (kind_of (tk t))) as [o|] eqn:B.
      * destruct es as [|b [|a es]]; cbn [List.length] in H; try lia.
        cbn [bind]. apply IH. cbn [List.length]. lia.
      * destruct (kind_of (tk t)); cbn [bind]; try (apply IH; lia).
        destruct es as [|a es]; cbn [List.length] in H; [lia|].
        cbn [bind]. apply IH. cbn [List.length]. lia.
    + cbn [okout]. exists (t :: r). split; [reflexivity|]. split; [exact H|].
      intros ->. exfalso. unfold tprec in Q. destruct (kind_of (tk t)); cbn in Q; lia.
Qed.

Lemma op_push_ok (imp : Prop) op tide low base up s : p_ops s = up ++ low -> List.length low = tide ->
  base + nb up + 1 <= depth s ->
  okout imp (fun s' => p_toks s' = p_toks s /\ exists up', p_ops s' = up' ++ low /\
     base + nb up' <= depth s' /\
     (binop_of (kind_of (tk op)) = None -> base + nb up' + 1 <= depth s'))
    (op_push op tide s).
Proof.
  intros EO LT H. unfold op_push. rewrite EO.
  eapply okout_bind; [eapply reduce_while_ok with (base := base); eassumption|].
  intros [ops es] (up' & -> & L & _). cbn [okout set_stacks p_toks p_ops].
  split; [reflexivity|]. exists (op :: up'). split; [reflexivity|].
  unfold depth. cbn [set_stacks p_exp nb].
  split; [|intros ->; lia].
  destruct (binop_of (kind_of (tk op))); lia.
Qed.

(** ** Expressions *)
Definition post (imp : Prop) (s s' : pst) : Prop :=
  good imp (p_toks s') /\ len s' < len s /\ p_ops s' = p_ops s /\ depth s <= depth s'.

Definition expr_safe_at (imp : Prop) (n : nat) : Prop :=
  (forall s, good imp (p_toks s) -> 4 * len s + 4 <= n ->
     okout imp (fun '(_, s') => post imp s s') (parse_expr n s)) /\
  (forall s up low base, good imp (p_toks s) -> p_ops s = up ++ low ->
     base + nb up <= depth s -> 4 * len s + 3 <= n ->
     okout imp (fun s' => good imp (p_toks s') /\ len s' < len s /\
        exists up', p_ops s' = up' ++ low /\ base + nb up' + 1 <= depth s')
       (parse_expr_ex n (List.length low) s)) /\
  (forall s, good imp (p_toks s) -> 1 <= depth s -> 4 * len s + 3 <= n ->
     okout imp (fun s' => good imp (p_toks s') /\ len s' <= len s /\ p_ops s' = p_ops s
        /\ depth s <= depth s') (parse_suffix n s)) /\
  (forall s, good imp (p_toks s) -> 4 * len s + 2 <= n ->
     okout imp (fun s' => good imp (p_toks s') /\ len s' < len s /\ p_ops s' = p_ops s
        /\ depth s + 1 <= depth s') (parse_lhs n s)) /\
  (forall s, good imp (p_toks s) -> 4 * len s + 5 <= n ->
     okout imp (fun '(_, s') => post imp s s') (parse_exprs n s)) /\
  (forall s, good imp (p_toks s) -> 4 * len s + 6 <= n ->
     okout imp (fun '(_, s') => post imp s s') (parse_call n s)).

Lemma same_depth s s' : same s s' -> depth s' = depth s.
Proof. intros [_ E]. unfold depth. now rewrite E. Qed.

Lemma len_push e s : len (push_exp e s) = len s.
Proof. reflexivity. Qed.
Lemma depth_push e s : depth (push_exp e s) = S (depth s).
Proof. reflexivity. Qed.
Lemma ops_push e s : p_ops (push_exp e s) = p_ops s.
Proof. reflexivity. Qed.
Lemma toks_push e s : p_toks (push_exp e s) = p_toks s.
Proof. reflexivity. Qed.

Lemma pop_exp_ok (imp : Prop) x s : 1 <= depth s ->
  okout imp (fun '(_, s') => p_toks s' = p_toks s /\ p_ops s' = p_ops s /\ S (depth s') = depth s)
    (pop_exp x s).
Proof.
  unfold depth, pop_exp. destruct (p_exp s) as [|e r]; cbn [List.length]; [lia|].
  intros _. cbn [okout set_stacks p_toks p_ops p_exp]. auto.
Qed.

Lemma good_len (imp : Prop) s : good imp (p_toks s) -> 1 <= len s.
Proof. unfold len. destruct (p_toks s); cbn [good List.length]; [tauto|lia]. Qed.

Lemma len_toks s s' : p_toks s' = p_toks s -> len s' = len s.
Proof. unfold len. now intros ->. Qed.

Ltac pok L := eapply okout_bind; [eapply L; try eassumption; try discriminate; try (now intros [|])|].

Lemma expr_safe (imp : Prop) n : expr_safe_at imp n.
Proof.
  induction n as [|n (I1 & I2 & I3 & I4 & I5 & I6)].
  { repeat split; intros; lia. }
  repeat split; intros.
  - (* expr *)
    rewrite parse_expr_S. cbv zeta.
    eapply okout_bind.
    { apply (I2 s [] (p_ops s) (depth s)); [assumption|reflexivity|cbn [nb]; lia|lia]. }
    intros s1 (G1 & L1 & up & E1 & D1). unfold op_pop_all.
    eapply okout_bind.
    { eapply okout_bind.
      - rewrite E1. eapply reduce_while_ok with (base := depth s); [reflexivity|exact D1].
      - intros [ops es] (up' & -> & L & Z). rewrite (Z eq_refl) in *. cbn [app nb] in *.
        instantiate (1 := fun s2 => p_toks s2 = p_toks s1 /\ p_ops s2 = p_ops s /\ depth s + 1 <= depth s2).
        cbn [okout set_stacks p_toks p_ops]. split; [auto|]. split; [auto|].
        change (depth (set_stacks (p_ops s) es s1)) with (List.length es). lia. }
    intros s2 (T2 & O2 & D2).
    eapply okout_weaken; [apply pop_exp_ok; lia|].
    intros [e s3] (T3 & O3 & D3). unfold post. rewrite T3, T2.
    rewrite (len_toks _ _ T3), (len_toks _ _ T2). split; [assumption|]. split; [assumption|].
    split; [congruence|lia].
  - (* expr_ex *)
    rewrite parse_expr_ex_S.
    pose proof (good_len _ _ H) as GL.
    pok found_ok. intros [[t|] s1] (G1 & SM & HF).
    { destruct HF as [L1 K1]. destruct SM as [SO SE]. pose proof (same_depth s s1 (conj SO SE)) as SD.
      eapply okout_bind.
      { apply (I2 s1 up low base); [assumption|congruence|lia|lia]. }
      intros s2 (G2 & L2 & up2 & O2 & D2).
      eapply okout_weaken; [eapply op_push_ok with (base := base); [exact O2|reflexivity|exact D2]|].
      intros s3 (T3 & up3 & O3 & D3 & D3'). rewrite T3, (len_toks _ _ T3).
      split; [assumption|]. split; [lia|]. exists up3. split; [assumption|].
      apply D3'. now rewrite K1. }
    subst s1. pok found_ok. intros [[t|] s1] (G1' & SM' & HF).
    { destruct HF as [L1 K1]. destruct SM' as [SO SE]. pose proof (same_depth s s1 (conj SO SE)) as SD.
      eapply okout_bind.
      { apply (I2 s1 up low base); [assumption|congruence|lia|lia]. }
      intros s2 (G2 & L2 & up2 & O2 & D2).
      eapply okout_bind; [apply pop_exp_ok; lia|].
      intros [e s3] (T3 & O3 & D3). cbn [okout]. rewrite toks_push, len_push, T3, (len_toks _ _ T3).
      split; [assumption|]. split; [lia|]. exists up2.
      rewrite ops_push, depth_push. split; [congruence|lia]. }
    subst s1. 
    eapply okout_bind; [apply I4; [assumption|lia]|].
    intros s2 (G2 & L2 & O2 & D2).
    eapply okout_bind; [apply I3; [assumption|lia|lia]|].
    intros s3 (G3 & L3 & O3 & D3). unfold is_operator.
    eapply okout_bind.
    { eapply okout_bind; [apply ptype_ok; eassumption|].
      intros k (t & r & E & ->). 
      instantiate (1 := fun b => exists t r, p_toks s3 = t :: r /\ b = (0 <? op_type (kind_of (tk t)))%Z).
      cbn [okout]. eauto. }
    intros b (t & r & ET & ->). destruct (0 <? op_type (kind_of (tk t)))%Z eqn:OP.
    + pok pop_ok. intros [op s4] (SM4 & L4 & (r' & ER) & _ & G4).
      rewrite ET in ER. injection ER as <- <-.
      assert (G4' : good imp (p_toks s4)).
      { apply G4. intros K. rewrite K in OP. cbn in OP. lia. }
      destruct SM4 as [SO SE]. pose proof (same_depth s3 s4 (conj SO SE)) as SD.
      eapply okout_bind.
      { eapply op_push_ok with (base := base) (low := low) (up := up);
          [congruence|reflexivity|lia]. }
      intros s5 (T5 & up5 & O5 & D5 & _).
      eapply okout_weaken.
      { apply (I2 s5 up5 low base); [now rewrite T5|assumption|lia|].
        rewrite (len_toks _ _ T5). lia. }
      intros s6 (G6 & L6 & up6 & O6 & D6). rewrite (len_toks _ _ T5) in L6.
      split; [assumption|]. split; [lia|]. eauto.
    + cbn [okout]. split; [assumption|]. split; [lia|]. exists up. split; [congruence|lia].
  - (* suffix *)
    rewrite parse_suffix_S.
    pok found_ok. intros [[t|] s1] (G1 & SM & HF).
    { destruct HF as [L1 K1]. destruct SM as [SO SE]. pose proof (same_depth s s1 (conj SO SE)) as SD.
      eapply okout_bind; [apply pop_exp_ok; lia|].
      intros [a s2] (T2 & O2 & D2).
      eapply okout_bind; [apply I1; [now rewrite T2|rewrite (len_toks _ _ T2); lia]|].
      intros [i s3] (G3 & L3 & O3 & D3). rewrite (len_toks _ _ T2) in L3.
      pok popk_ok. intros [t4 s4] (G4 & SM4 & L4 & _).
      rewrite len_push in L4. pose proof (same_depth _ _ SM4) as D4. rewrite depth_push in D4.
      destruct SM4 as [SO4 _]. rewrite ops_push in SO4.
      eapply okout_weaken; [apply I3; [assumption|lia|lia]|].
      intros s5 (G5 & L5 & O5 & D5). split; [assumption|]. split; [lia|]. split; [congruence|lia]. }
    subst s1. pok found_ok. intros [[t|] s1] (G1' & SM' & HF).
    { destruct HF as [L1 K1]. destruct SM' as [SO SE]. pose proof (same_depth s s1 (conj SO SE)) as SD.
      eapply okout_bind; [apply I6; [assumption|lia]|].
      intros [es s2] (G2 & L2 & O2 & D2).
      eapply okout_bind; [apply pop_exp_ok; lia|].
      intros [f s3] (T3 & O3 & D3). pose proof (len_toks _ _ T3) as L3.
      eapply okout_weaken; [apply I3; [now rewrite toks_push, T3|rewrite depth_push; lia|rewrite len_push; lia]|].
      intros s5 (G5 & L5 & O5 & D5). rewrite len_push in L5. rewrite ops_push in O5. rewrite depth_push in D5.
      split; [assumption|]. split; [lia|]. split; [congruence|lia]. }
    subst s1. cbn [okout]. auto.
  - (* lhs *)
    rewrite parse_lhs_S.
    pok found_ok. intros [[t|] s1] (G1 & SM & HF).
    { destruct HF as [L1 K1]. destruct SM as [SO SE]. pose proof (same_depth s s1 (conj SO SE)) as SD.
      eapply okout_bind; [apply I5; [assumption|lia]|].
      intros [es s2] (G2 & L2 & O2 & D2).
      pok popk_ok. intros [t3 s3] (G3 & SM3 & L3 & _).
      pose proof (same_depth _ _ SM3) as D3. rewrite depth_push in D3. destruct SM3 as [SO3 _].
      rewrite len_push in L3. rewrite ops_push in SO3. cbn [okout].
      split; [assumption|]. split; [lia|]. split; [congruence|lia]. }
    subst s1. clear G1 SM. pok found_ok. intros [[t|] s1] (G1 & SM & HF).
    { destruct HF as [L1 K1]. destruct SM as [SO SE]. pose proof (same_depth s s1 (conj SO SE)) as SD.
      eapply okout_bind; [apply I1; [assumption|lia]|].
      intros [e s2] (G2 & L2 & O2 & D2).
      pok popk_ok. intros [t3 s3] (G3 & SM3 & L3 & _).
      pose proof (same_depth _ _ SM3) as D3. rewrite depth_push in D3. destruct SM3 as [SO3 _].
      rewrite len_push in L3. rewrite ops_push in SO3. cbn [okout].
      split; [assumption|]. split; [lia|]. split; [congruence|lia]. }
    subst s1. clear G1 SM. pok found_ok. intros [[t|] s1] (G1 & SM & HF).
    { destruct HF as [L1 K1]. destruct SM as [SO SE]. pose proof (same_depth s s1 (conj SO SE)) as SD.
      pok found_ok. intros [[t2|] s2] (G2 & SM2 & HF2); pose proof (same_depth _ _ SM2) as D2; destruct SM2 as [SO2 _].
      - destruct HF2 as [L2 K2].
        pok popk_ok. intros [t3 s3] (G3 & SM3 & L3 & _).
        pose proof (same_depth _ _ SM3) as D3. destruct SM3 as [SO3 _].
        cbn [okout]. rewrite toks_push, len_push, ops_push, depth_push.
        split; [assumption|]. split; [lia|]. split; [congruence|lia].
      - subst s2. cbn [okout]. rewrite toks_push, len_push, ops_push, depth_push.
        split; [assumption|]. split; [lia|]. split; [congruence|lia]. }
    do 4 (subst s1; clear G1 SM; pok found_ok; intros [[t|] s1] (G1 & SM & HF);
      [destruct HF as [L1 K1]; pose proof (same_depth _ _ SM) as SD; destruct SM as [SO SE];
       cbn [okout]; rewrite toks_push, len_push, ops_push, depth_push;
       split; [assumption|]; split; [lia|]; split; [congruence|lia] |]).
    subst s1. pok pop_ok. intros [t s1] (_ & _ & _ & HI & _). now apply perr_ok.
  - (* exprs *)
    rewrite parse_exprs_S.
    eapply okout_bind; [apply I1; [assumption|lia]|].
    intros [e s1] (G1 & L1 & O1 & D1).
    pok found_ok. intros [[t|] s2] (G2 & SM & HF); pose proof (same_depth _ _ SM) as D2; destruct SM as [SO _].
    + destruct HF as [L2 K2].
      eapply okout_bind; [apply I5; [assumption|lia]|].
      intros [es s3] (G3 & L3 & O3 & D3). cbn [okout]. unfold post.
      split; [assumption|]. split; [lia|]. split; [congruence|lia].
    + subst s2. cbn [okout]. unfold post. split; [assumption|]. split; [lia|]. split; [congruence|lia].
  - (* call *)
    rewrite parse_call_S.
    pok found_ok. intros [[t|] s1] (G1 & SM & HF); pose proof (same_depth _ _ SM) as SD; destruct SM as [SO _].
    + destruct HF as [L1 K1]. cbn [okout]. unfold post. split; [assumption|]. split; [lia|]. split; [congruence|lia].
    + subst s1. eapply okout_bind; [apply I5; [assumption|lia]|].
      intros [es s2] (G2 & L2 & O2 & D2).
      pok popk_ok. intros [t3 s3] (G3 & SM3 & L3 & _). pose proof (same_depth _ _ SM3) as D3.
      destruct SM3 as [SO3 _].
      cbn [okout]. unfold post. split; [assumption|]. split; [lia|]. split; [congruence|lia].
Qed.

(** ** Statements *)
Definition spost (imp : Prop) (s s' : pst) : Prop :=
  good imp (p_toks s') /\ len s' < len s /\ p_ops s' = p_ops s.

Lemma spost_expr imp n s : good imp (p_toks s) -> 4 * len s + 4 <= n ->
  okout imp (fun '(_, s') => spost imp s s') (parse_expr n s).
Proof.
  intros G L. eapply okout_weaken; [apply (proj1 (expr_safe imp n)); assumption|].
  intros [e s'] (A & B & C & _). red. auto.
Qed.

Lemma spost_call imp n s : good imp (p_toks s) -> 4 * len s + 6 <= n ->
  okout imp (fun '(_, s') => spost imp s s') (parse_call n s).
Proof.
  intros G L. destruct (expr_safe imp n) as (_ & _ & _ & _ & _ & H).
  eapply okout_weaken; [apply H; assumption|].
  intros [e s'] (A & B & C & _). red. auto.
Qed.

Lemma spost_popk (imp : Prop) k s : good imp (p_toks s) -> k <> K_EOF ->
  (k = K_STRING \/ k = K_IMPORT -> imp) ->
  okout imp (fun '(t, s') => spost imp s s' /\ kind_of (tk t) = k) (popk k s).
Proof.
  intros G N I. eapply okout_weaken; [apply popk_ok; assumption|].
  intros [t s'] (A & [B _] & C & D). unfold spost. repeat split; auto; lia.
Qed.

Lemma spost_found (imp : Prop) k s : good imp (p_toks s) -> k <> K_EOF ->
  okout imp (fun '(o, s') => match o with Some t => spost imp s s' /\ kind_of (tk t) = k | None => s' = s end)
    (found k s).
Proof.
  intros G N. eapply okout_weaken; [apply found_ok; assumption|].
  intros [[t|] s'] (A & [B _] & C); [|exact C]. unfold spost. destruct C. repeat split; auto; lia.
Qed.

Lemma decl_var_ok imp n s : good imp (p_toks s) -> 4 * len s + 4 <= n ->
  okout imp (fun '(_, s') => spost imp s s') (parse_decl_var n s).
Proof.
  intros G L. unfold parse_decl_var.
  pok spost_popk. intros [t s1] ((G1 & L1 & O1) & _).
  pok spost_found. intros [[t2|] s2] H2.
  - destruct H2 as ((G2 & L2 & O2) & _). pok (spost_expr imp n); [lia|].
    intros [e s3] (G3 & L3 & O3). cbn [okout]. unfold spost. repeat split; auto; try lia; congruence.
  - subst s2. cbn [okout]. unfold spost. repeat split; auto.
Qed.

Lemma ident_stmt_ok imp n t s : good imp (p_toks s) -> kind_of (tk t) = K_IDENT ->
  4 * len s + 4 <= n ->
  okout imp (fun '(_, s') => spost imp s s') (parse_ident_stmt n t s).
Proof.
  intros G KT L. unfold parse_ident_stmt.
  pok peek_ok. intros k (h & r & E & ->).
  assert (HP : kind_of (tk h) <> K_EOF -> okout imp (fun '(h', s') => h' = h /\ spost imp s s') (pop s)).
  { intros NE. eapply okout_weaken; [apply pop_ok; assumption|].
    intros [h' s'] ([A _] & B & (r' & E') & _ & C). rewrite E in E'. injection E' as <- <-.
    unfold spost. repeat split; auto; lia. }
  assert (HE : okout imp (fun '(_, s') => spost imp s s') (perr (A := stmt * pst) E_assign_or_call_expected_after (p_line s) t)).
  { apply perr_ok. congruence. }
  assert (HC : binop_of (kind_of (tk h)) <> None -> okout imp (fun '(_, s') => spost imp s s') (parse_compound n t s)).
  { intros HB. unfold parse_compound.
    eapply okout_bind; [apply HP; intros K; rewrite K in HB; now apply HB|].
    intros [op s1] (-> & G1 & L1 & O1).
    pok spost_found. intros [[t2|] s2] H2; [|subst; exact I].
    destruct H2 as ((G2 & L2 & O2) & _). pok (spost_expr imp n); [lia|].
    intros [e s3] (G3 & L3 & O3). destruct (binop_of (kind_of (tk h))); [|now contradiction HB].
    cbn [okout]. unfold spost. repeat split; auto; try lia; congruence. }
  destruct (kind_of (tk h)) eqn:KH; try exact HE; try (apply HC; discriminate).
  - (* ( *)
    eapply okout_bind; [apply HP; discriminate|]. intros [c s1] (-> & G1 & L1 & O1).
    pok (spost_call imp n); [lia|]. intros [es s2] (G2 & L2 & O2).
    cbn [okout]. unfold spost. repeat split; auto; try lia; congruence.
  - (* [ *)
    eapply okout_bind; [apply HP; discriminate|]. intros [c s1] (-> & G1 & L1 & O1).
    unfold parse_array_set.
    pok (spost_expr imp n); [lia|]. intros [i s2] (G2 & L2 & O2).
    pok spost_popk. intros [t3 s3] ((G3 & L3 & O3) & _).
    pok spost_popk. intros [t4 s4] ((G4 & L4 & O4) & _).
    pok (spost_expr imp n); [lia|]. intros [e s5] (G5 & L5 & O5).
    cbn [okout]. unfold spost. repeat split; auto; try lia; congruence.
  - (* = *)
    eapply okout_bind; [apply HP; discriminate|]. intros [c s1] (-> & G1 & L1 & O1).
    pok (spost_expr imp n); [lia|]. intros [i s2] (G2 & L2 & O2).
    cbn [okout]. unfold spost. repeat split; auto; try lia; congruence.
  - (* . *)
    unfold parse_member_assign.
    pok spost_popk. intros [t1 s1] ((G1 & L1 & O1) & _).
    pok spost_popk. intros [t2 s2] ((G2 & L2 & O2) & _).
    pok spost_popk. intros [t3 s3] ((G3 & L3 & O3) & _).
    pok (spost_expr imp n); [lia|]. intros [i s4] (G4 & L4 & O4).
    cbn [okout]. unfold spost. repeat split; auto; try lia; congruence.
Qed.

Lemma return_ok imp n t s : good imp (p_toks s) -> 4 * len s + 4 <= n ->
  okout imp (fun '(_, s') => good imp (p_toks s') /\ len s' <= len s /\ p_ops s' = p_ops s)
    (parse_return n t s).
Proof.
  intros G L. unfold parse_return.
  pok peek_ok. intros k (h & r & E & ->).
  assert (HX : okout imp (fun '(_, s') => good imp (p_toks s') /\ len s' <= len s /\ p_ops s' = p_ops s)
     ('(e, s1) <- parse_expr n s ;; Ok (SReturn (tk_line t) (Some e), s1))).
  { pok (spost_expr imp n). intros [e s1] (G1 & L1 & O1). cbn [okout]. repeat split; auto; lia. }
  destruct (kind_of (tk h)); try exact HX. cbn [okout]. auto.
Qed.

Lemma stmt_safe imp n :
  (forall s, good imp (p_toks s) -> 4 * len s + 8 <= n ->
     okout imp (fun '(_, s') => spost imp s s') (parse_stmt n s)) /\
  (forall s, good imp (p_toks s) -> 4 * len s + 9 <= n ->
     okout imp (fun '(_, _, s') => spost imp s s') (parse_body n s)) /\
  (forall s, good imp (p_toks s) -> 4 * len s + 9 <= n ->
     okout imp (fun '(_, _, s') => spost imp s s') (parse_then n s)).
Proof.
  induction n as [|n (I1 & I2 & I3)].
  { repeat split; intros; lia. }
  repeat split; intros s G L.
  - rewrite parse_stmt_S.
    pok skip_eols_ok. intros s0 (G0 & [O0 _] & L0).
    pok pop_ok. intros [t s1] ([O1 _] & L1 & _ & IM & G1).
    assert (SE : okout imp (fun '(_, s') => good imp (p_toks s') /\ len s' <= len s1 /\ p_ops s' = p_ops s1)
       (perr (A := stmt * pst) E_statement_expected (p_line s1) t)) by (apply perr_ok; assumption).
    eapply okout_bind with (P := fun '(_, s') => good imp (p_toks s') /\ len s' <= len s1 /\ p_ops s' = p_ops s1).
    { destruct (kind_of (tk t)) eqn:KT; try exact SE; clear SE;
        assert (G1' : good imp (p_toks s1)) by (apply G1; discriminate).
      - (* if *)
        pok spost_popk. intros [t2 s2] ((G2 & L2 & O2) & _).
        pok (spost_expr imp n); [lia|]. intros [c s3] (G3 & L3 & O3).
        pok spost_popk. intros [t4 s4] ((G4 & L4 & O4) & _).
        pok spost_popk. intros [t5 s5] ((G5 & L5 & O5) & _).
        eapply okout_bind; [apply I3; [assumption|lia]|].
        intros [[b els] s6] (G6 & L6 & O6). destruct els.
        + eapply okout_bind; [apply I2; [assumption|lia]|].
          intros [[f e] s7] (G7 & L7 & O7). cbn [okout]. repeat split; auto; try lia; congruence.
        + cbn [okout]. repeat split; auto; try lia; congruence.
      - (* while *)
        pok spost_popk. intros [t2 s2] ((G2 & L2 & O2) & _).
        pok (spost_expr imp n); [lia|]. intros [c s3] (G3 & L3 & O3).
        pok spost_popk. intros [t4 s4] ((G4 & L4 & O4) & _).
        pok spost_popk. intros [t5 s5] ((G5 & L5 & O5) & _).
        eapply okout_bind; [apply I2; [assumption|lia]|].
        intros [[f e] s7] (G7 & L7 & O7). cbn [okout]. repeat split; auto; try lia; congruence.
      - (* var *)
        pok (decl_var_ok imp n); [lia|]. intros [[[x l] e] s2] (G2 & L2 & O2).
        cbn [okout]. repeat split; auto; try lia; congruence.
      - (* for *)
        pok spost_popk. intros [t2 s2] ((G2 & L2 & O2) & _).
        pok spost_popk. intros [t3 s3] ((G3 & L3 & O3) & _).
        pok spost_popk. intros [t4 s4] ((G4 & L4 & O4) & _).
        pok (spost_expr imp n); [lia|]. intros [a s5] (G5 & L5 & O5).
        pok spost_popk. intros [t6 s6] ((G6 & L6 & O6) & _).
        pok (spost_expr imp n); [lia|]. intros [b s7] (G7 & L7 & O7).
        pok spost_popk. intros [t8 s8] ((G8 & L8 & O8) & _).
        pok spost_popk. intros [t9 s9] ((G9 & L9 & O9) & _).
        eapply okout_bind; [apply I2; [assumption|lia]|].
        intros [[f e] s10] (G10 & L10 & O10). cbn [okout]. repeat split; auto; try lia; congruence.
      - (* ident *)
        eapply okout_weaken; [apply ident_stmt_ok; [assumption|assumption|lia]|].
        intros [st s2] (G2 & L2 & O2). repeat split; auto; lia.
      - (* return *)
        apply return_ok; [assumption|lia]. }
    intros [st s2] (G2 & L2 & O2).
    pok spost_popk. intros [t3 s3] ((G3 & L3 & O3) & _).
    pok skip_eols_ok. intros s4 (G4 & [O4 _] & L4).
    cbn [okout]. unfold spost. repeat split; auto; try lia; congruence.
  - rewrite parse_body_S.
    pok spost_found. intros [[t2|] s2] H2.
    + cbn [okout]. tauto.
    + subst s2. eapply okout_bind; [apply I1; [assumption|lia]|].
      intros [st s2] (G2 & L2 & O2).
      eapply okout_bind; [apply I2; [assumption|lia]|].
      intros [[b t] s3] (G3 & L3 & O3). cbn [okout]. unfold spost. repeat split; auto; try lia; congruence.
  - rewrite parse_then_S.
    pok spost_found. intros [[t2|] s2] H2.
    + cbn [okout]. tauto.
    + subst s2. pok spost_found. intros [[t2|] s2] H2.
      * destruct H2 as ((G2 & L2 & O2) & _).
        pok spost_popk. intros [t3 s3] ((G3 & L3 & O3) & _).
        cbn [okout]. unfold spost. repeat split; auto; try lia; congruence.
      * subst s2. eapply okout_bind; [apply I1; [assumption|lia]|].
        intros [st s2] (G2 & L2 & O2).
        eapply okout_bind; [apply I3; [assumption|lia]|].
        intros [[b t] s3] (G3 & L3 & O3). cbn [okout]. unfold spost. repeat split; auto; try lia; congruence.
Qed.

(** ** Top level *)
Lemma args_safe imp n : forall s, good imp (p_toks s) -> len s <= n ->
  okout imp (fun '(_, s') => spost imp s s') (parse_args n s).
Proof.
  induction n as [|n IH]; intros s G L.
  { apply good_len in G. lia. }
  rewrite parse_args_S.
  pok spost_popk. intros [t s1] ((G1 & L1 & O1) & _).
  pok spost_found. intros [[t2|] s2] H2.
  - destruct H2 as ((G2 & L2 & O2) & _).
    eapply okout_bind; [apply IH; [assumption|lia]|].
    intros [l s3] (G3 & L3 & O3). cbn [okout]. unfold spost. repeat split; auto; try lia; congruence.
  - subst s2. cbn [okout]. unfold spost. auto.
Qed.

Lemma function_ok imp n s : good imp (p_toks s) -> 4 * len s + 9 <= n ->
  okout imp (fun '(_, s') => spost imp s s') (parse_function n s).
Proof.
  intros G L. unfold parse_function.
  pok spost_popk. intros [t s1] ((G1 & L1 & O1) & _).
  pok spost_popk. intros [t2 s2] ((G2 & L2 & O2) & _).
  pok spost_found. intros [o s3] H3.
  eapply okout_bind with (P := fun '(_, s') => spost imp s2 s').
  { destruct o as [t3|].
    - cbn [okout]. tauto.
    - subst s3. eapply okout_bind; [apply args_safe; [assumption|lia]|].
      intros [l s3] (G3 & L3 & O3).
      pok spost_popk. intros [t4 s4] ((G4 & L4 & O4) & _).
      cbn [okout]. unfold spost. repeat split; auto; try lia; congruence. }
  intros [l s4] (G4 & L4 & O4).
  pok spost_popk. intros [t5 s5] ((G5 & L5 & O5) & _).
  eapply okout_bind; [apply (stmt_safe imp n); [assumption|lia]|].
  intros [[b e] s6] (G6 & L6 & O6). cbn [okout]. unfold spost. repeat split; auto; try lia; congruence.
Qed.

Lemma import_ok (imp : Prop) fs src m s : good imp (p_toks s) -> imp ->
  okout imp (fun '(_, _, s') => spost imp s s') (parse_import fs src m s).
Proof.
  intros G HI. unfold parse_import.
  eapply okout_bind; [apply spost_popk; [assumption|discriminate|auto]|].
  intros [t s1] (S1 & K). destruct (sm_load fs m (imported_path src (t_str t))) as [[|] m1].
  - exact S1.
  - apply perr_ok. congruence.
Qed.

Lemma found_eof imp s : good imp (p_toks s) ->
  okout imp (fun '(o, s') => match o with
     | Some t => kind_of (tk t) = K_EOF /\ p_toks s' = [] /\ same s s'
     | None => s' = s /\ forall t r, p_toks s = t :: r -> kind_of (tk t) <> K_EOF end) (found K_EOF s).
Proof.
  intros G. unfold found, ptype. destruct (p_toks s) as [|t r] eqn:E; [destruct G|].
  cbn [bind]. destruct (kind_eqb (kind_of (tk t)) K_EOF) eqn:K.
  - unfold pop. rewrite E. cbn [bind okout p_toks]. destruct G as [_ G]. rewrite K in G.
    apply kind_eqb_eq in K. unfold same. auto.
  - cbn [okout]. split; [reflexivity|]. intros t' r' E'. injection E' as <- <-.
    intros K'. apply kind_eqb_eq in K'. congruence.
Qed.

Lemma items_safe imp fs src n : forall m s, good imp (p_toks s) -> 4 * len s + 10 <= n ->
  okout imp (fun '(_, _, s') => p_toks s' = [] /\ p_ops s' = p_ops s) (parse_items fs src n m s).
Proof.
  induction n as [|n IH]; intros m s G L; [lia|].
  rewrite parse_items_S.
  eapply okout_bind; [apply found_eof; eassumption|]. intros [[t|] s1] H1.
  { destruct H1 as (_ & T1 & [O1 _]). cbn [okout]. auto. }
  destruct H1 as [-> NE].
  pok pop_ok. intros [t s1] ([O1 _] & L1 & (r & ER) & IM & G1).
  specialize (NE _ _ ER). specialize (G1 NE).
  destruct (kind_of (tk t)) eqn:KT;
    try (pok pop_ok; intros [t2 s2] (_ & _ & _ & IM2 & _); now apply perr_ok).
  - pok (function_ok imp n); [lia|]. intros [f s2] (G2 & L2 & O2).
    eapply okout_bind; [apply IH; [assumption|lia]|].
    intros [[r' m1] s3] (T3 & O3). cbn [okout]. split; [assumption|congruence].
  - pok (decl_var_ok imp n); [lia|]. intros [[[x l] e] s2] (G2 & L2 & O2).
    eapply okout_bind; [apply IH; [assumption|lia]|].
    intros [[r' m1] s3] (T3 & O3). cbn [okout]. split; [assumption|congruence].
  - eapply okout_weaken; [apply IH; [assumption|lia]|].
    intros [[r' m1] s3] (T3 & O3). split; [assumption|congruence].
  - pok (decl_var_ok imp n); [lia|]. intros [[[x l] e] s2] (G2 & L2 & O2).
    eapply okout_bind; [apply IH; [assumption|lia]|].
    intros [[r' m1] s3] (T3 & O3). cbn [okout]. split; [assumption|congruence].
  - eapply okout_bind; [apply import_ok; auto|].
    intros [[i m1] s2] (G2 & L2 & O2).
    eapply okout_bind; [apply IH; [assumption|lia]|].
    intros [[r' m2] s3] (T3 & O3). cbn [okout]. split; [assumption|congruence].
Qed.
