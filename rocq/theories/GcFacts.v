(** From rooted heaps to the ideal heap and back. *)
From Coq Require Import ZArith List Bool Lia ZifyBool.
From Verif Require Import Base BaseFacts VM Gc AbsHeap GcProofs GcSpec.
Import ListNotations.
Open Scope Z_scope.

(** ** Walks *)
Definition ashows (A : aheap) (v : aval) : shown :=
  match v with
  | ANone => ShNone
  | AS s => ShScalar s
  | AArr l => match znth A l with Some x => ShArray (zlen x) | None => ShDangling end
  end.
Fixpoint afollow (A : aheap) (v : aval) (path : list Z) : option aval :=
  match path with
  | [] => Some v
  | i :: r =>
      match v with
      | AArr l => match znth A l with
                  | Some x => match znth x i with
                              | Some q => afollow A q r
                              | None => None
                              end
                  | None => None
                  end
      | _ => None
      end
  end.
Definition aat (A : aheap) (vss : list (list aval)) (x : place) : option aval :=
  let '(i, j, path) := x in
  match znth vss i with
  | None => None
  | Some l => match znth l j with
              | None => None
              | Some p => afollow A p path
              end
  end.

Definition orel2 {X Y} (R : X -> Y -> Prop) (a : option X) (b : option Y) : Prop :=
  match a, b with
  | Some x, Some y => R x y
  | None, None => True
  | _, _ => False
  end.

Lemma follow_rel : forall A h B path p v, HR A h B -> vrel h B p v ->
  orel2 (vrel h B) (follow h p path) (afollow A v path).
Proof.
  intros A h B path. induction path as [|i r IH]; intros p v HH V; simpl; auto.
  destruct p as [a|], v as [|s|l]; simpl in V; try contradiction; auto.
  - destruct V as [V _]. now rewrite V.
  - destruct (hr_obj _ _ _ HH a l V) as (ps & vs & R & Z & F). rewrite R, Z.
    pose proof (Forall2_znth _ _ _ F i) as Q.
    destruct (znth ps i), (znth vs i); try contradiction; simpl; auto.
Qed.

Lemma at_rel : forall A h B rs vss x, HR A h B -> Forall2 (Forall2 (vrel h B)) rs vss ->
  orel2 (vrel h B) (at_place h rs x) (aat A vss x).
Proof.
  intros A h B rs vss [[i j] path] HH F. simpl.
  pose proof (Forall2_znth _ _ _ F i) as Q.
  destruct (znth rs i), (znth vss i); try contradiction; simpl; auto.
  pose proof (Forall2_znth _ _ _ Q j) as Q2.
  destruct (znth l j), (znth l0 j); try contradiction; simpl; auto.
  apply follow_rel; auto.
Qed.

Lemma shows_rel : forall A h B p v, HR A h B -> vrel h B p v -> shows h p = ashows A v.
Proof.
  intros A h B p v HH V. destruct p as [a|], v as [|s|l]; simpl in *; try contradiction; auto.
  - destruct V as [V _]. now rewrite V.
  - destruct (hr_obj _ _ _ HH a l V) as (ps & vs & R & Z & F). rewrite R, Z.
    now rewrite (Forall2_zlen _ _ _ F).
Qed.

Lemma HR_same_graph : forall A h B h' B' rs rs' vss,
  HR A h B -> HR A h' B' ->
  Forall2 (Forall2 (vrel h B)) rs vss -> Forall2 (Forall2 (vrel h' B')) rs' vss ->
  same_graph h rs h' rs'.
Proof.
  intros A h B h' B' rs rs' vss H1 H2 F1 F2. split.
  - intros x. pose proof (at_rel _ _ _ _ _ x H1 F1) as P. pose proof (at_rel _ _ _ _ _ x H2 F2) as Q.
    destruct (at_place h rs x), (at_place h' rs' x), (aat A vss x); simpl in *; try contradiction; auto.
    erewrite !shows_rel by eauto. reflexivity.
  - intros x y a b a' b' [Xa [? Ra]] [Yb [? Rb]] [Xa' [? Ra']] [Yb' [? Rb']].
    pose proof (at_rel _ _ _ _ _ x H1 F1) as P1. pose proof (at_rel _ _ _ _ _ x H2 F2) as P2.
    pose proof (at_rel _ _ _ _ _ y H1 F1) as P3. pose proof (at_rel _ _ _ _ _ y H2 F2) as P4.
    rewrite Xa in P1. rewrite Xa' in P2. rewrite Yb in P3. rewrite Yb' in P4.
    destruct (aat A vss x) as [[|s|l]|]; simpl in *; try contradiction.
    { destruct P1 as [P1 _]; congruence. }
    destruct (aat A vss y) as [[|s|k]|]; simpl in *; try contradiction.
    { destruct P3 as [P3 _]; congruence. }
    split; intros ->.
    + assert (l = k) by (eapply (hr_fun _ _ _ H1); eauto). subst. eapply (hr_inj _ _ _ H2); eauto.
    + assert (l = k) by (eapply (hr_fun _ _ _ H2); eauto). subst. eapply (hr_inj _ _ _ H1); eauto.
Qed.

Lemma HR_safe : forall A h B rs vss, HR A h B -> Forall2 (Forall2 (vrel h B)) rs vss ->
  safe_roots h rs.
Proof.
  intros A h B rs vss HH F. split; [apply HH|]. intros x p E.
  pose proof (at_rel _ _ _ _ _ x HH F) as P. rewrite E in P.
  destruct (aat A vss x) as [v|]; simpl in P; [|contradiction].
  destruct p as [a|], v as [|s|l]; simpl in *; try contradiction.
  - destruct P as [P SO]. rewrite P. split; [discriminate|]. intros t [= ->]. exact SO.
  - destruct (hr_obj _ _ _ HH a l P) as (ps & vs & R & Z & F'). rewrite R.
    split; [discriminate|]. intros ? [=].
  - split; [discriminate|]. intros ? [=].
Qed.

(** ** The ideal heap of a rooted heap *)
Definition acode (a : addr) : Z := 2 * snd a + if fst a then 1 else 0.
Definition adecode (k : Z) : addr := (Z.odd k, k / 2).
Lemma adecode_acode : forall a, adecode (acode a) = a.
Proof.
  intros [s o]. unfold adecode, acode; simpl fst; simpl snd. f_equal.
  - destruct s; [|rewrite Z.add_0_r]; [|rewrite Z.odd_mul; auto].
    rewrite Z.add_comm, Z.odd_add_mul_2. reflexivity.
  - destruct s; [|rewrite Z.add_0_r].
    + rewrite Z.mul_comm, Z.div_add_l by lia. change (1 / 2) with 0. lia.
    + rewrite Z.mul_comm, Z.div_mul; lia.
Qed.
Lemma acode_inj : forall a b, acode a = acode b -> a = b.
Proof. intros a b E. rewrite <- (adecode_acode a), E. apply adecode_acode. Qed.

Definition absv (h : heap) (p : ptr) : aval :=
  match p with
  | None => ANone
  | Some a => match read h a with
              | Some (KS s) => AS s
              | Some (KA _) => AArr (acode a)
              | None => ANone
              end
  end.
Definition abs_obj (h : heap) (k : Z) : list aval :=
  match read h (adecode k) with
  | Some (KA l) => map (absv h) l
  | _ => []
  end.
Definition abs_heap (h : heap) : aheap :=
  map (fun n => abs_obj h (Z.of_nat n))
      (seq 0 (Z.to_nat (2 * Z.max (g_head h true) (g_head h false)))).

Lemma znth_map_seq : forall {X} (f : nat -> X) n m k, 0 <= k < Z.of_nat n ->
  znth (map f (seq m n)) k = Some (f (m + Z.to_nat k)%nat).
Proof.
  intros X f n. induction n as [|n IH]; intros m k Hk; [lia|]. cbn [seq map znth].
  destruct (k =? 0) eqn:E.
  - apply Z.eqb_eq in E. subst. simpl. now rewrite Nat.add_0_r.
  - apply Z.eqb_neq in E. rewrite IH by lia. do 2 f_equal. lia.
Qed.

Lemma znth_abs_heap : forall h a l, in_arena h -> read h a = Some (KA l) ->
  znth (abs_heap h) (acode a) = Some (map (absv h) l).
Proof.
  intros h [s o] l [H0 W] R. unfold abs_heap.
  pose proof (W s o _ R) as [L U]. pose proof (cell_size_pos (KA l)).
  rewrite znth_map_seq.
  - simpl Nat.add. rewrite Z2Nat.id by (unfold acode; destruct s; cbn [fst snd]; lia).
    unfold abs_obj. rewrite adecode_acode, R. reflexivity.
  - unfold acode; simpl fst; simpl snd. destruct s; lia.
Qed.

Lemma follow_snoc : forall h path p q a l i, follow h p path = Some q -> q = Some a ->
  read h a = Some (KA l) -> follow h p (path ++ [i]) = znth l i.
Proof.
  intros h path. induction path as [|k r IH]; intros p q a l i E -> R; simpl in *.
  - injection E as ->. rewrite R. now destruct (znth l i).
  - destruct p as [b|]; [|discriminate]. destruct (read h b) as [[]|]; try discriminate.
    destruct (znth l0 k); [|discriminate]. eapply IH; eauto.
Qed.
Lemma at_snoc : forall h rs i j path a l k, at_place h rs (i, j, path) = Some (Some a) ->
  read h a = Some (KA l) -> at_place h rs (i, j, path ++ [k]) = znth l k.
Proof.
  intros h rs i j path a l k E R. simpl in *.
  destruct (znth rs i) as [r|]; [|discriminate]. destruct (znth r j) as [p|]; [|discriminate].
  eapply follow_snoc; eauto.
Qed.

Lemma In_znth : forall {X} (l : list X) x, In x l -> exists i, znth l i = Some x.
Proof.
  induction l as [|y l IH]; intros x H; [destruct H|].
  destruct H as [->|H]; [exists 0; reflexivity|].
  destruct (IH _ H) as [i E]. exists (i + 1). cbn [znth].
  pose proof (znth_some _ _ _ E) as L.
  destruct (i + 1 =? 0) eqn:Q; [lia|]. now rewrite Z.add_simpl_r.
Qed.

Lemma safe_abstract : forall h rs, safe_roots h rs ->
  exists A B vss, HR A h B /\ Forall2 (Forall2 (vrel h B)) rs vss.
Proof.
  intros h rs [W S].
  set (B := fun a l => l = acode a /\ (exists ps, read h a = Some (KA ps)) /\
                       exists x, at_place h rs x = Some (Some a)).
  assert (V : forall x p, at_place h rs x = Some p -> vrel h B p (absv h p)).
  { intros x p E. destruct (S x p E) as [ND NN]. destruct p as [a|]; simpl; auto.
    simpl in ND, NN. destruct (read h a) as [[s|l]|] eqn:R; simpl.
    - split; auto. destruct s; simpl; auto.
    - unfold B. split; auto. split; eauto.
    - congruence. }
  exists (abs_heap h), B, (map (map (absv h)) rs). split.
  - constructor; auto.
    + intros a l l' [-> _] [-> _]. reflexivity.
    + intros a b l [-> _] [E _]. now apply acode_inj.
    + intros a l (-> & [ps R] & [[[i j] path] E]). exists ps, (map (absv h) ps).
      split; auto. split; [apply znth_abs_heap; auto|].
      assert (Q : forall p, In p ps -> vrel h B p (absv h p)).
      { intros p I. apply In_znth in I as [k I]. apply (V (i, j, path ++ [k])).
        erewrite at_snoc; eauto. }
      clear R. induction ps; simpl; constructor; auto with datatypes.
  - assert (Q : forall r, In r rs -> forall p, In p r -> vrel h B p (absv h p)).
    { intros r I p J. apply In_znth in I as [i I]. apply In_znth in J as [j J].
      apply (V (i, j, [])). simpl. now rewrite I, J. }
    clearbody B. clear - Q. induction rs as [|r rs IH]; simpl; constructor.
    + specialize (Q r (or_introl eq_refl)). clear - Q.
      induction r; simpl; constructor; auto with datatypes.
    + apply IH. intros r' I. apply Q. now right.
Qed.

(** ** Acyclic heaps have bounded nesting *)

Fixpoint chainp (A : aheap) (v : aval) (ls : list Z) : Prop :=
  match ls with
  | [] => True
  | l :: r => v = AArr l /\ exists vs i v', znth A l = Some vs /\ znth vs i = Some v' /\ chainp A v' r
  end.

Lemma adepth_or_chain : forall A n v,
  adepth n A v \/ (exists ls, List.length ls = n /\ chainp A v ls).
Proof.
  intros A. induction n as [|n IH]; intros v.
  - right. exists []. simpl; auto.
  - destruct v as [|s|l]; try (left; exact I). simpl.
    destruct (znth A l) as [vs|] eqn:Z; [|left; exact I].
    assert (Q : Forall (adepth n A) vs \/
                exists i v' ls, znth vs i = Some v' /\ List.length ls = n /\ chainp A v' ls).
    { clear Z. induction vs as [|w vs IHv]; [left; constructor|].
      destruct (IH w) as [D|(ls & L & C)].
      - destruct IHv as [F|(i & v' & ls & E & L & C)]; [left; constructor; auto|].
        right. exists (i + 1), v', ls. split; [|auto]. cbn [znth].
        pose proof (znth_some _ _ _ E). destruct (i + 1 =? 0) eqn:Q; [lia|].
        now rewrite Z.add_simpl_r.
      - right. exists 0, w, ls. auto. }
    destruct Q as [F|(i & v' & ls & E & L & C)]; [left; auto|].
    right. exists (l :: ls). split; [simpl; auto|]. simpl. split; auto.
    exists vs, i, v'. auto.
Qed.

Lemma afollow_app : forall A p v q, afollow A v (p ++ q) =
  match afollow A v p with Some w => afollow A w q | None => None end.
Proof.
  intros A p. induction p as [|i r IH]; intros v q; simpl; auto.
  destruct v; auto. destruct (znth A loc); auto. destruct (znth l i); auto.
Qed.
Lemma follow_app : forall h p v q, follow h v (p ++ q) =
  match follow h v p with Some w => follow h w q | None => None end.
Proof.
  intros h p. induction p as [|i r IH]; intros v q; simpl; auto.
  destruct v; auto. destruct (read h a) as [[]|]; auto. destruct (znth l i); auto.
Qed.

Lemma chain_walk : forall A v a x b, chainp A v (a ++ x :: b) ->
  exists path, afollow A v path = Some (AArr x) /\ (a <> [] -> path <> []).
Proof.
  intros A v a. revert v. induction a as [|l a IH]; intros v x b C; simpl in C.
  - destruct C as [-> _]. exists []. split; auto.
  - destruct C as (-> & vs & i & v' & Z & E & C). destruct (IH _ _ _ C) as (p & F & _).
    exists (i :: p). split; [simpl; now rewrite Z, E|discriminate].
Qed.
Lemma chain_tail : forall A v a x b, chainp A v (a ++ x :: b) -> chainp A (AArr x) (x :: b).
Proof.
  intros A v a. revert v. induction a as [|l a IH]; intros v x b C; simpl in C.
  - simpl. destruct C as [-> C]. auto.
  - destruct C as (-> & vs & i & v' & Z & E & C). eauto.
Qed.
Lemma chain_valid : forall A ls v, chainp A v ls ->
  forall l, In l ls -> In l (map Z.of_nat (seq 0 (List.length A))).
Proof.
  intros A. induction ls as [|k ls IH]; intros v C l I; [destruct I|].
  destruct C as (-> & vs & i & v' & Z & E & C). destruct I as [<-|I]; [|eauto].
  pose proof (znth_some _ _ _ Z) as L. apply in_map_iff. exists (Z.to_nat k).
  split; [lia|]. apply in_seq. unfold zlen in L. lia.
Qed.

Lemma nodup_or_dup : forall l : list Z,
  NoDup l \/ exists x a b c, l = a ++ x :: b ++ x :: c.
Proof.
  induction l as [|y l [N|(x & a & b & c & ->)]]; [left; constructor| |].
  - destruct (in_dec Z.eq_dec y l) as [I|I]; [|left; constructor; auto].
    right. apply in_split in I as (b & c & ->). exists y, [], b, c. reflexivity.
  - right. exists x, (y :: a), b, c. reflexivity.
Qed.

Definition acyc (A : aheap) (v : aval) : Prop :=
  forall p q l, afollow A v p = Some (AArr l) -> afollow A (AArr l) q = Some (AArr l) -> q = [].

Lemma acyc_depth : forall A v, acyc A v -> adepth (S (List.length A)) A v.
Proof.
  intros A v AC. destruct (adepth_or_chain A (S (List.length A)) v) as [D|(ls & L & C)]; auto.
  exfalso. assert (ND : ~ NoDup ls).
  { intros ND. assert (I : incl ls (map Z.of_nat (seq 0 (List.length A))))
      by (intros l I; eapply chain_valid; eauto).
    pose proof (NoDup_incl_length ND I) as Q. rewrite map_length, seq_length in Q. lia. }
  destruct (nodup_or_dup ls) as [N|(x & l1 & l2 & l3 & ->)]; [auto|].
  destruct (chain_walk _ _ _ _ _ C) as (p & P & _).
  apply chain_tail in C. destruct (chain_walk A (AArr x) (x :: l2) x l3 C) as (q & Q & NE).
  apply NE; [discriminate|]. eapply AC; eauto.
Qed.

Lemma acyclic_depth : forall A h B rs vss,
  HR A h B -> Forall2 (Forall2 (vrel h B)) rs vss -> ~ cyclic h rs ->
  Forall (Forall (adepth (S (List.length A)) A)) vss.
Proof.
  intros A h B rs vss HH F NC.
  assert (Q : forall i j r v, znth vss i = Some r -> znth r j = Some v -> acyc A v).
  { intros i j r v Ei Ej p q l Hp Hq. destruct q as [|k q]; auto. exfalso. apply NC.
    pose proof (at_rel _ _ _ _ _ (i, j, p) HH F) as R. simpl aat in R. rewrite Ei, Ej, Hp in R.
    destruct (at_place h rs (i, j, p)) as [[a|]|] eqn:E; simpl in R; try contradiction.
    pose proof (follow_rel _ _ _ (k :: q) (Some a) (AArr l) HH R) as R2. rewrite Hq in R2.
    destruct (follow h (Some a) (k :: q)) as [[b|]|] eqn:E2; simpl in R2; try contradiction.
    assert (b = a) by (eapply (hr_inj _ _ _ HH); eauto). subst b.
    exists (i, j, p), a, (k :: q). split; auto. split; [discriminate|auto]. }
  apply Forall_forall. intros r I. apply Forall_forall. intros v J.
  apply In_znth in I as [i I]. apply In_znth in J as [j J]. apply acyc_depth. eauto.
Qed.

Lemma depth_acyclic : forall A h B rs vss n,
  HR A h B -> Forall2 (Forall2 (vrel h B)) rs vss -> Forall (Forall (adepth n A)) vss ->
  ~ cyclic h rs.
Proof.
  intros A h B rs vss n HH F D ([[i j] p] & a & q & E & NE & C).
  pose proof (at_rel _ _ _ _ _ (i, j, p) HH F) as R. rewrite E in R. simpl aat in R.
  destruct (znth vss i) as [r|] eqn:Ei; [|contradiction].
  destruct (znth r j) as [v|] eqn:Ej; [|contradiction].
  destruct (afollow A v p) as [w|] eqn:Ep; [|contradiction]. simpl in R.
  pose proof (follow_rel _ _ _ q (Some a) w HH R) as R2. rewrite C in R2.
  destruct (afollow A w q) as [x|] eqn:Eq; simpl in R2; [|contradiction].
  destruct q as [|k q]; [congruence|].
  destruct w as [|s|l]; [contradiction|simpl in Eq; discriminate|]. simpl in R.
  destruct x as [|s|l']; simpl in R2; [contradiction| |].
  { destruct R2 as [R2 _]. destruct (hr_obj _ _ _ HH a l R) as (? & ? & ? & _). congruence. }
  assert (l' = l) by (eapply (hr_fun _ _ _ HH); eauto). subst l'.
  apply znth_In in Ei. apply znth_In in Ej.
  rewrite Forall_forall in D. specialize (D _ Ei). rewrite Forall_forall in D. specialize (D _ Ej).
  assert (FD : forall p n v w, adepth n A v -> afollow A v p = Some w -> adepth n A w).
  { clear. induction p as [|i p IH]; intros n v w D E; simpl in E; [congruence|].
    destruct v; try discriminate. destruct (znth A loc) as [vs|] eqn:Z; [|discriminate].
    destruct (znth vs i) eqn:Zi; [|discriminate]. destruct n; [contradiction|]. simpl in D.
    rewrite Z in D. rewrite Forall_forall in D. apply adepth_S. eapply IH; [|eauto].
    apply D. eapply znth_In; eauto. }
  pose proof (FD _ _ _ _ D Ep) as Dl. clear - Dl Eq FD.
  induction n as [|n IH]; [contradiction|]. apply IH. cbn [afollow] in Eq. cbn [adepth] in Dl.
  destruct (znth A l) as [vs|]; [|discriminate]. destruct (znth vs k) eqn:Zi; [|discriminate].
  rewrite Forall_forall in Dl. eapply FD; [|exact Eq]. apply Dl. eapply znth_In; eauto.
Qed.

(** ** Tracing values of bounded nesting ends *)
Lemma trace1_total : forall A n rec cap0,
  (forall h f B ps vs, GI A h f B -> Forall2 (vrel h B) ps vs -> Forall (adepth n A) vs ->
     exists r c0, forall cap, c0 <= cap -> rec cap h f ps = Ok r) ->
  forall h f B p v, GI A h f B -> vrel h B p v -> adepth (S n) A v ->
     exists r c0, cap0 <= c0 /\ forall cap, c0 <= cap -> trace1 cap (rec cap) h f p = Ok r.
Proof.
  intros A n rec cap0 SR h f B p v G V D.
  assert (AL : forall h c, exists r c0, cap0 <= c0 /\ forall cap, c0 <= cap -> trace_alloc cap h c = Ok r).
  { intros h0 c. unfold trace_alloc, alloc.
    eexists. exists (Z.max cap0 (g_head h0 (sp_to h0) + cell_size c + 1)). split; [lia|].
    intros cap L. assert (Q : (g_head h0 (sp_to h0) + cell_size c <? cap) = true) by lia.
    rewrite Q. reflexivity. }
  destruct p as [a|].
  2: { eexists. exists cap0. split; [lia|]. intros; reflexivity. }
  destruct v as [|s|l]; simpl in V; [contradiction| |].
  - destruct V as [R SO]. simpl. rewrite R. destruct (eqb _ _).
    { eexists. exists cap0. split; [lia|]. intros; reflexivity. }
    assert (Q : (match s with SStr t => assert_ (zlen (cstr t) =? zlen t) | _ => Ok tt end) = Ok tt).
    { destruct s; auto. simpl in SO. rewrite cstr_nonul by auto. unfold assert_.
      now rewrite Z.eqb_refl. }
    rewrite Q. cbn [bind]. destruct (AL h (KS s)) as ([h' b] & c0 & L & E).
    eexists. exists c0. split; auto. intros cap Lc. rewrite E by auto. reflexivity.
  - destruct (gi_obj _ _ _ _ G a l V) as (ps & vs & R & Z & F2). simpl. rewrite R.
    simpl in D. rewrite Z in D.
    destruct (SR _ _ _ _ _ G F2 D) as ([[h1 f1] ps1] & c1 & E1).
    destruct (AL (write h1 a (KA ps1)) (KA ps1)) as ([h3 b] & c3 & L3 & E3).
    destruct (eqb (fst a) (sp_to (write h1 a (KA ps1)))) eqn:Q.
    { eexists. exists (Z.max cap0 c1). split; [lia|]. intros cap Lc. rewrite E1 by lia.
      cbn [bind]. rewrite Q. reflexivity. }
    destruct (fwd_find f1 a) eqn:Ff.
    { eexists. exists (Z.max cap0 c1). split; [lia|]. intros cap Lc. rewrite E1 by lia.
      cbn [bind]. rewrite Q, Ff. reflexivity. }
    eexists. exists (Z.max c3 c1). split; [lia|]. intros cap Lc. rewrite E1 by lia.
    cbn [bind]. rewrite Q, Ff, E3 by lia. reflexivity.
Qed.

Lemma trace_total : forall A n h f B ps vs,
  GI A h f B -> Forall2 (vrel h B) ps vs -> Forall (adepth n A) vs ->
  exists r c0, forall cap, c0 <= cap -> trace cap (S n) h f ps = Ok r.
Proof.
  intros A. induction n as [|n IH]; intros h f B ps vs G F D.
  - (* no arrays at all *)
    revert h f B vs G F D. induction ps as [|p ps IHp]; intros h f B vs G F D.
    { eexists. exists 0. intros; reflexivity. }
    inversion F as [|? v ? vs' V F']; subst. inversion D as [|? ? D1 D2]; subst.
    assert (T1 : exists r c0, forall cap, c0 <= cap -> trace1 cap (trace cap 0) h f p = Ok r).
    { destruct v as [|s|l]; [| |contradiction].
      - destruct p; [contradiction|]. eexists. exists 0. intros; reflexivity.
      - destruct p as [a|]; [|contradiction]. destruct V as [R SO].
        simpl. rewrite R. destruct (eqb _ _). { eexists. exists 0. intros; reflexivity. }
        assert (Q : (match s with SStr t => assert_ (zlen (cstr t) =? zlen t) | _ => Ok tt end) = Ok tt).
        { destruct s; auto. simpl in SO. rewrite cstr_nonul by auto. unfold assert_.
          now rewrite Z.eqb_refl. }
        rewrite Q. cbn [bind]. unfold trace_alloc, alloc.
        eexists. exists (g_head h (sp_to h) + cell_size (KS s) + 1).
        intros cap L.
        assert (Q2 : (g_head h (sp_to h) + cell_size (KS s) <? cap) = true) by lia.
        rewrite Q2. reflexivity. }
    destruct T1 as ([[h1 f1] p1] & c1 & E1).
    destruct (trace1_spec A c1 0 _ (trace_spec A c1 0) _ _ _ _ _ _ _ _ G V (E1 c1 (Z.le_refl _)))
      as (_ & B1 & TP1 & V1 & C1 & K1).
    destruct (IHp h1 f1 B1 vs' (tp_gi _ _ _ _ _ _ _ _ TP1)) as ([[h2 f2] ps2] & c2 & E2); auto.
    { eapply Forall2_imp; [|exact F']. intros q w. apply vrel_mono; apply TP1. }
    eexists. exists (Z.max c1 c2). intros cap L.
    change (trace cap 1 h f (p :: ps)) with (trace_list cap (trace cap 0) h f (p :: ps)).
    cbn [trace_list]. rewrite E1 by lia. cbn [bind].
    specialize (E2 cap ltac:(lia)). change (trace cap 1 h1 f1 ps) with (trace_list cap (trace cap 0) h1 f1 ps) in E2.
    rewrite E2. reflexivity.
  - revert h f B vs G F D. induction ps as [|p ps IHp]; intros h f B vs G F D.
    { eexists. exists 0. intros; reflexivity. }
    inversion F as [|? v ? vs' V F']; subst. inversion D as [|? ? D1 D2]; subst.
    destruct (trace1_total A n (fun cap => trace cap (S n)) 0
                IH _ _ _ _ _ G V D1)
      as ([[h1 f1] p1] & c1 & _ & E1).
    destruct (trace1_spec A c1 (S n) _ (trace_spec A c1 (S n)) _ _ _ _ _ _ _ _ G V (E1 c1 (Z.le_refl _)))
      as (_ & B1 & TP1 & V1 & C1 & K1).
    destruct (IHp h1 f1 B1 vs' (tp_gi _ _ _ _ _ _ _ _ TP1)) as ([[h2 f2] ps2] & c2 & E2); auto.
    { eapply Forall2_imp; [|exact F']. intros q w. apply vrel_mono; apply TP1. }
    eexists. exists (Z.max c1 c2). intros cap L.
    change (trace cap (S (S n)) h f (p :: ps)) with (trace_list cap (trace cap (S n)) h f (p :: ps)).
    cbn [trace_list]. rewrite E1 by lia. cbn [bind].
    specialize (E2 cap ltac:(lia)).
    change (trace cap (S (S n)) h1 f1 ps) with (trace_list cap (trace cap (S n)) h1 f1 ps) in E2.
    rewrite E2. reflexivity.
Qed.

Definition nodiv {X} (r : res X) : Prop := r <> Stuck SDiverge.
Lemma nodiv_bind : forall {X Y} (m : res X) (k : X -> res Y),
  nodiv m -> (forall x, m = Ok x -> nodiv (k x)) -> nodiv (bind m k).
Proof. unfold nodiv. intros X Y [x|e l|[]] k H K; simpl in *; auto; discriminate. Qed.

Lemma trace_alloc_nodiv : forall cap h c, nodiv (trace_alloc cap h c).
Proof. intros. unfold nodiv, trace_alloc. destruct (alloc _ _ _); discriminate. Qed.

Lemma trace_nodiv : forall A cap n h f B ps vs,
  GI A h f B -> Forall2 (vrel h B) ps vs -> Forall (adepth n A) vs ->
  nodiv (trace cap (S n) h f ps).
Proof.
  intros A cap. induction n as [|n IH]; intros h f B ps vs G F D;
    revert h f B vs G F D; induction ps as [|p ps IHp]; intros h f B vs G F D;
    try (unfold nodiv; discriminate);
    inversion F as [|? v ? vs' V F']; subst; inversion D as [|? ? D1 D2]; subst;
    match goal with |- nodiv (trace cap (S ?m) h f (p :: ps)) =>
      change (nodiv (bind (trace1 cap (trace cap m) h f p) (fun '(h1, f1, p1) =>
                     bind (trace cap (S m) h1 f1 ps) (fun '(h2, f2, r2) => Ok (h2, f2, p1 :: r2)))))
    end;
    (apply nodiv_bind; [|
      intros [[h1 f1] p1] E1; 
      match type of E1 with trace1 cap (trace cap ?m) _ _ _ = _ =>
        destruct (trace1_spec A cap m _ (trace_spec A cap m) _ _ _ _ _ _ _ _ G V E1)
          as (_ & B1 & TP1 & _) end;
      apply nodiv_bind; [|intros [[]] _; discriminate];
      eapply (IHp h1 f1 B1 vs'); auto; [apply TP1|];
      eapply Forall2_imp; [|exact F']; intros q w; apply vrel_mono; apply TP1]).
  - destruct p as [a|]; simpl; [|discriminate]. destruct v as [|s|l]; simpl in V; try contradiction.
    destruct V as [R SO]. rewrite R. destruct (eqb _ _); [discriminate|].
    apply nodiv_bind; [destruct s; try discriminate; unfold assert_; destruct (_ =? _); discriminate|].
    intros _ _. apply nodiv_bind; [apply trace_alloc_nodiv|]. intros [] _; discriminate.
  - destruct p as [a|]; simpl; [|discriminate]. destruct v as [|s|l]; simpl in V; try contradiction.
    + destruct V as [R SO]. rewrite R. destruct (eqb _ _); [discriminate|].
      apply nodiv_bind; [destruct s; try discriminate; unfold assert_; destruct (_ =? _); discriminate|].
      intros _ _. apply nodiv_bind; [apply trace_alloc_nodiv|]. intros [] _; discriminate.
    + destruct (gi_obj _ _ _ _ G a l V) as (ps0 & vs & R & Z & F2). rewrite R.
      simpl in D1. rewrite Z in D1.
      apply nodiv_bind; [eapply IH; eauto|]. intros [[h1 f1] ps1] _.
      destruct (eqb _ _); [discriminate|]. destruct (fwd_find _ _); [discriminate|].
      apply nodiv_bind; [apply trace_alloc_nodiv|]. intros [] _; discriminate.
Qed.

Lemma HR_GI : forall A h B, HR A h B -> GI A h [] B.
Proof.
  intros A h B [W Fn In Ob].
  assert (SP : sp_from h <> sp_to h) by (unfold sp_from, sp_to; destruct (g_flip h); discriminate).
  constructor; auto.
  - intros; eauto.
  - intros a b l S1 S2 H1 H2. exfalso. pose proof (In _ _ _ H1 H2). congruence.
  - discriminate.
Qed.

Lemma trace_roots_total : forall A n rs h f B vss,
  GI A h f B -> Forall2 (Forall2 (vrel h B)) rs vss -> Forall (Forall (adepth n A)) vss ->
  exists r c0, forall cap, c0 <= cap -> trace_roots cap (S n) h f rs = Ok r.
Proof.
  intros A n. induction rs as [|r rs IH]; intros h f B vss G F D.
  - eexists. exists 0. intros; reflexivity.
  - inversion F as [|? v ? vs' V F']; subst. inversion D as [|? ? D1 D2]; subst.
    destruct (trace_total _ _ _ _ _ _ _ G V D1) as ([[h1 f1] r1] & c1 & E1).
    destruct (trace_spec A c1 (S n) _ _ _ _ _ _ _ _ G V (E1 c1 (Z.le_refl _)))
      as (_ & B1 & TP1 & _).
    destruct (IH h1 f1 B1 vs' (tp_gi _ _ _ _ _ _ _ _ TP1)) as ([[h2 f2] rs2] & c2 & E2); auto.
    { eapply Forall2_imp; [|exact F']. intros q w. apply Forall2_imp.
      intros ? ?; apply vrel_mono; apply TP1. }
    eexists. exists (Z.max c1 c2). intros cap L. cbn [trace_roots].
    rewrite E1 by lia. cbn [bind]. rewrite E2 by lia. reflexivity.
Qed.

Lemma trace_roots_nodiv : forall A cap n rs h f B vss,
  GI A h f B -> Forall2 (Forall2 (vrel h B)) rs vss -> Forall (Forall (adepth n A)) vss ->
  nodiv (trace_roots cap (S n) h f rs).
Proof.
  intros A cap n. induction rs as [|r rs IH]; intros h f B vss G F D; [discriminate|].
  inversion F as [|? v ? vs' V F']; subst. inversion D as [|? ? D1 D2]; subst.
  cbn [trace_roots]. apply nodiv_bind; [eapply trace_nodiv; eauto|].
  intros [[h1 f1] r1] E1.
  destruct (trace_spec A cap (S n) _ _ _ _ _ _ _ _ G V E1) as (_ & B1 & TP1 & _).
  apply nodiv_bind; [|intros [[]] _; discriminate]. eapply (IH h1 f1 B1 vs'); [apply TP1| |auto].
  eapply Forall2_imp; [|exact F']. intros q w. apply Forall2_imp.
  intros ? ?; apply vrel_mono; apply TP1.
Qed.

Lemma adepth_le : forall n m A v, (n <= m)%nat -> adepth n A v -> adepth m A v.
Proof. intros n m A v L D. induction L; auto. now apply adepth_S. Qed.
