(** Correctness of the collector: the traced heap is related to the same ideal
    heap as before. *)
From Coq Require Import ZArith List Bool Lia ZifyBool.
From Verif Require Import Base BaseFacts VM Gc AbsHeap.
Import ListNotations.
Open Scope Z_scope.

Arguments read : simpl never.
Arguments write : simpl never.
Arguments flip : simpl never.
Arguments alloc : simpl never.

Lemma Forall2_length : forall {A B} (R : A -> B -> Prop) l l',
  Forall2 R l l' -> List.length l = List.length l'.
Proof. induction 1; simpl; auto. Qed.
Lemma Forall2_zlen : forall {A B} (R : A -> B -> Prop) l l',
  Forall2 R l l' -> zlen l = zlen l'.
Proof. intros; unfold zlen; erewrite Forall2_length; eauto. Qed.
Lemma Forall2_imp : forall {A B} (R R' : A -> B -> Prop) l l',
  (forall a b, R a b -> R' a b) -> Forall2 R l l' -> Forall2 R' l l'.
Proof. induction 2; auto. Qed.
Lemma Forall2_znth : forall {A B} (R : A -> B -> Prop) l l',
  Forall2 R l l' -> forall i,
  match znth l i, znth l' i with
  | Some x, Some y => R x y
  | None, None => True
  | _, _ => False
  end.
Proof.
  induction 1; intros i; simpl; auto. destruct (i =? 0); auto. apply IHForall2.
Qed.
Lemma Forall2_zupd : forall {A B} (R : A -> B -> Prop) l l' i x y,
  Forall2 R l l' -> R x y -> Forall2 R (zupd l i x) (zupd l' i y).
Proof.
  intros A B R l l' i x y H; revert i; induction H; intros i Hxy; simpl; auto.
  destruct (i =? 0); auto.
Qed.

Lemma addr_eqb_eq : forall a b, addr_eqb a b = true <-> a = b.
Proof.
  intros [s o] [s' o']. unfold addr_eqb; simpl. rewrite andb_true_iff, eqb_true_iff, Z.eqb_eq.
  split; [intros [-> ->]|intros [= -> ->]]; auto.
Qed.
Lemma addr_eqb_refl : forall a, addr_eqb a a = true.
Proof. intros; now apply addr_eqb_eq. Qed.
Lemma addr_eqb_neq : forall a b, a <> b -> addr_eqb a b = false.
Proof.
  intros. destruct (addr_eqb a b) eqn:E; auto. apply addr_eqb_eq in E; congruence.
Qed.
Lemma addr_dec : forall a b : addr, {a = b} + {a <> b}.
Proof.
  intros. destruct (addr_eqb a b) eqn:E; [left; now apply addr_eqb_eq|right].
  intros ->. rewrite addr_eqb_refl in E. discriminate.
Qed.

(** ** Well formed heaps *)
Definition wfh (h : heap) : Prop :=
  (forall s, 0 <= g_head h s) /\
  forall s o c, g_mem h s o = Some c -> 0 <= o /\ o + cell_size c <= g_head h s.

Lemma cell_size_pos : forall c, 8 <= cell_size c.
Proof.
  intros [[]|l]; cbn [cell_size]; try lia.
  - pose proof (zlen_nonneg s); lia.
  - pose proof (zlen_nonneg l); lia.
Qed.

Lemma read_write_same : forall h a c, read (write h a c) a = Some c.
Proof. intros h [s o] c. unfold read, write; cbn. now rewrite addr_eqb_refl. Qed.
Lemma read_write_other : forall h a b c, b <> a -> read (write h a c) b = read h b.
Proof.
  intros h a [s o] c H. unfold read, write; cbn. now rewrite addr_eqb_neq.
Qed.

Lemma wfh_write : forall h a c c',
  wfh h -> read h a = Some c -> cell_size c' = cell_size c -> wfh (write h a c').
Proof.
  intros h a c c' [H0 H] R S. split; auto. intros s o x E. simpl in *.
  destruct (addr_eqb (s, o) a) eqn:Q.
  - injection E as <-. apply addr_eqb_eq in Q. subst a. rewrite S. now apply H.
  - now apply H.
Qed.

Lemma alloc_spec : forall cap h c h' b,
  wfh h -> alloc cap h c = Some (h', b) ->
  wfh h' /\ fst b = sp_to h /\ read h b = None /\ read h' b = Some c /\
  (forall x, x <> b -> read h' x = read h x) /\ g_flip h' = g_flip h /\
  g_head h (sp_to h) + cell_size c < cap.
Proof.
  intros cap h c h' b [H0 W] E. unfold alloc in E.
  destruct (_ <? cap) eqn:L; [|discriminate]. injection E as <- <-.
  pose proof (cell_size_pos c). simpl.
  assert (N : read h (sp_to h, g_head h (sp_to h)) = None).
  { unfold read; simpl. destruct (g_mem h _ _) eqn:G; auto.
    apply W in G. pose proof (cell_size_pos c0). lia. }
  repeat split; auto.
  - intros s; simpl. destruct (eqb s (sp_to h)) eqn:Q; auto.
    specialize (H0 (sp_to h)). lia.
  - simpl in H1. destruct (addr_eqb (s, o) _) eqn:Q.
    + apply addr_eqb_eq in Q. injection Q as -> ->. apply H0.
    + now apply W in H1.
  - simpl in *. destruct (addr_eqb (s, o) _) eqn:Q.
    + apply addr_eqb_eq in Q. injection Q as -> ->. injection H1 as <-.
      rewrite eqb_reflx. lia.
    + apply W in H1. destruct (eqb s (sp_to h)) eqn:Q2; [|lia].
      apply eqb_prop in Q2. subst s. lia.
  - unfold read; simpl. now rewrite addr_eqb_refl.
  - intros [s o] Hx. unfold read; simpl. now rewrite addr_eqb_neq.
  - lia.
Qed.

(** ** Relating pointers and ideal values *)
Definition bmap : Type := addr -> Z -> Prop.

(** Strings never contain a NUL. *)
Definition sok (s : scell) : Prop :=
  match s with SStr t => ~ In 0 t | _ => True end.

Definition vrel (h : heap) (B : bmap) (p : ptr) (v : aval) : Prop :=
  match p, v with
  | None, ANone => True
  | Some a, AS s => read h a = Some (KS s) /\ sok s
  | Some a, AArr l => B a l
  | _, _ => False
  end.

Definition obj_rel (A : aheap) (h : heap) (B : bmap) : Prop :=
  forall a l, B a l -> exists ps vs,
    read h a = Some (KA ps) /\ znth A l = Some vs /\ Forall2 (vrel h B) ps vs.

(** The relation between collections. *)
Record HR (A : aheap) (h : heap) (B : bmap) : Prop := {
  hr_wf : wfh h;
  hr_fun : forall a l l', B a l -> B a l' -> l = l';
  hr_inj : forall a b l, B a l -> B b l -> a = b;
  hr_obj : obj_rel A h B
}.

(** ** Values that are entirely in the "to" arena *)
Fixpoint clean (k : nat) (h : heap) (p : ptr) : Prop :=
  match p with
  | None => True
  | Some a =>
      fst a = sp_to h /\
      match read h a with
      | Some (KS _) => True
      | Some (KA ps) => match k with
                        | O => False
                        | S k' => Forall (clean k' h) ps
                        end
      | None => False
      end
  end.
Definition Clean (h : heap) (p : ptr) : Prop := exists k, clean k h p.

Lemma clean_S : forall k h p, clean k h p -> clean (S k) h p.
Proof.
  induction k as [|k IH]; intros h [a|] H; auto; simpl in H; destruct H as [H1 H2];
    split; auto; destruct (read h a) as [[s|ps]|] eqn:R; auto; [contradiction|].
  eapply Forall_impl; [|exact H2]. intros p Hp. apply (IH h p Hp).
Qed.
Lemma clean_le : forall k k' h p, (k <= k')%nat -> clean k h p -> clean k' h p.
Proof. induction 1; auto. intros. apply clean_S; auto. Qed.

Lemma Clean_all : forall h ps, Forall (Clean h) ps -> exists k, Forall (clean k h) ps.
Proof.
  induction 1 as [|p ps [k Hk] _ [k' IH]]; [exists O; auto|].
  exists (max k k'). constructor.
  - eapply clean_le; [|exact Hk]; lia.
  - eapply Forall_impl; [|exact IH]. intros q. apply clean_le; lia.
Qed.

Lemma Clean_arr : forall h a ps, fst a = sp_to h -> read h a = Some (KA ps) ->
  Forall (Clean h) ps -> Clean h (Some a).
Proof.
  intros h a ps F R C. apply Clean_all in C as [k C]. exists (S k). simpl.
  rewrite R. auto.
Qed.

(** Growing the heap keeps values clean. *)
Lemma clean_grow : forall k h h' p,
  g_flip h' = g_flip h ->
  (forall a, read h a <> None -> read h' a = read h a) ->
  clean k h p -> clean k h' p.
Proof.
  induction k as [|k IH]; intros h h' [a|] F R C; auto; simpl in *;
    unfold sp_to in *; rewrite F; destruct C as [C1 C2]; split; auto;
    destruct (read h a) as [[s|ps]|] eqn:E; try contradiction;
    rewrite R by congruence; rewrite E; auto.
  eapply Forall_impl; [|exact C2]. intros q; apply IH; auto.
Qed.

(** Rewriting an array keeps values clean, provided the array is unchanged
    whenever it is clean itself. *)
Lemma clean_write : forall k h a ps p,
  (forall j, clean j h (Some a) -> read h a = Some (KA ps)) ->
  clean k h p -> clean k (write h a (KA ps)) p.
Proof.
  induction k as [|k IH]; intros h a ps [b|] W C; auto.
  - destruct (addr_dec b a) as [->|N].
    + pose proof (W _ C) as E. simpl in C. rewrite E in C. tauto.
    + simpl in *. rewrite read_write_other; auto.
  - destruct (addr_dec b a) as [->|N].
    + pose proof (W _ C) as E. simpl in C. simpl. rewrite E in C.
      rewrite read_write_same. destruct C as [C1 C2]. split; auto.
      eapply Forall_impl; [|exact C2]. intros q Hq. apply IH; auto.
    + simpl in *. rewrite read_write_other by auto. destruct C as [C1 C2]. split; auto.
      destruct (read h b) as [[s|qs]|]; auto.
      eapply Forall_impl; [|exact C2]. intros q Hq. apply IH; auto.
Qed.

(** ** Reachability in the ideal heap *)
Inductive areach (A : aheap) : aval -> Z -> Prop :=
| ar_refl : forall l, areach A (AArr l) l
| ar_step : forall l vs v k,
    znth A l = Some vs -> In v vs -> areach A v k -> areach A (AArr l) k.

Fixpoint adepth (n : nat) (A : aheap) (v : aval) : Prop :=
  match v with
  | AArr l =>
      match n with
      | O => False
      | S m => match znth A l with
               | Some vs => Forall (adepth m A) vs
               | None => True
               end
      end
  | _ => True
  end.
Lemma adepth_S : forall n A v, adepth n A v -> adepth (S n) A v.
Proof.
  induction n as [|n IH]; intros A [| |l] H; simpl in *; auto; [contradiction|].
  destruct (znth A l) as [vs|]; auto. eapply Forall_impl; [|exact H].
  intros w Hw. apply (IH A w Hw).
Qed.
Lemma adepth_reach : forall A v l, areach A v l -> forall n, adepth n A v -> adepth n A (AArr l).
Proof.
  induction 1 as [l|l vs v k Z I R IH]; intros n D; auto.
  destruct n as [|n]; [contradiction|]. simpl in D. rewrite Z in D.
  rewrite Forall_forall in D. apply adepth_S. apply IH. now apply D.
Qed.
Lemma adepth_acyclic : forall n A l vs v,
  adepth n A (AArr l) -> znth A l = Some vs -> In v vs -> areach A v l -> False.
Proof.
  induction n as [|n IH]; intros A l vs v D Z I R; [contradiction|].
  simpl in D. rewrite Z in D. rewrite Forall_forall in D.
  eapply IH; eauto. eapply adepth_reach; eauto.
Qed.
Lemma adepth_acyclic_list : forall n A l vs,
  Forall (adepth n A) vs -> znth A l = Some vs -> forall v, In v vs -> ~ areach A v l.
Proof.
  intros n A l vs F Z v I R. apply (adepth_acyclic (S n) A l vs v); auto.
  simpl. now rewrite Z.
Qed.

(** ** The invariant of a collection in progress *)
Record GI (A : aheap) (h : heap) (f : fwd) (B : bmap) : Prop := {
  gi_wf : wfh h;
  gi_fun : forall a l l', B a l -> B a l' -> l = l';
  gi_obj : obj_rel A h B;
  gi_inj : forall a b l, fst a = fst b -> B a l -> B b l -> a = b;
  gi_cross : forall a b l, fst a = sp_from h -> fst b = sp_to h ->
                           B a l -> B b l -> fwd_find f a = Some b;
  gi_fwd : forall a b, fwd_find f a = Some b ->
             fst b = sp_to h /\ Clean h (Some b) /\ exists l, B a l /\ B b l
}.

Record TP (A : aheap) (vs : list aval) (h : heap) (f : fwd) (B : bmap)
       (h' : heap) (f' : fwd) (B' : bmap) : Prop := {
  tp_gi : GI A h' f' B';
  tp_flip : g_flip h' = g_flip h;
  tp_ext : forall a l, B a l -> B' a l;
  tp_scal : forall a s, read h a = Some (KS s) -> read h' a = Some (KS s);
  tp_clean : forall p, Clean h p -> Clean h' p;
  tp_mod : forall a l, B a l -> (forall v, In v vs -> ~ areach A v l) ->
                       read h' a = read h a
}.

Lemma vrel_mono : forall h (B : bmap) h' (B' : bmap) p v,
  (forall a l, B a l -> B' a l) ->
  (forall a s, read h a = Some (KS s) -> read h' a = Some (KS s)) ->
  vrel h B p v -> vrel h' B' p v.
Proof. intros h B h' B' [a|] [|s|l] E S H; simpl in *; auto. destruct H; auto. Qed.

Definition keeps (t : bool) (p p' : ptr) : Prop :=
  match p with
  | None => p' = None
  | Some a => fst a = t -> p' = p
  end.

Definition tracer : Type := heap -> fwd -> list ptr -> res (heap * fwd * list ptr).
Definition traces (A : aheap) (n : nat) (rec : tracer) : Prop :=
  forall h f B ps vs h' f' ps',
    GI A h f B -> Forall2 (vrel h B) ps vs ->
    rec h f ps = Ok (h', f', ps') ->
    Forall (adepth n A) vs /\
    exists B', TP A vs h f B h' f' B' /\ Forall2 (vrel h' B') ps' vs /\
               Forall (Clean h') ps' /\ Forall2 (keeps (sp_to h)) ps ps'.

Lemma clean_scalar : forall h a s, fst a = sp_to h -> read h a = Some (KS s) -> Clean h (Some a).
Proof. intros h a s F R. exists O. simpl. now rewrite R. Qed.

Lemma TP_refl : forall A vs h f B, GI A h f B -> TP A vs h f B h f B.
Proof. intros; constructor; auto. Qed.

Lemma TP_trans : forall A v vs h f B h1 f1 B1 h2 f2 B2,
  TP A [v] h f B h1 f1 B1 -> TP A vs h1 f1 B1 h2 f2 B2 ->
  TP A (v :: vs) h f B h2 f2 B2.
Proof.
  intros A v vs h f B h1 f1 B1 h2 f2 B2 [] []. constructor; auto; try congruence.
  intros a l Ba N. rewrite tp_mod1 with (l := l); auto.
  - apply tp_mod0 with (l := l); auto. intros w [<-|[]]. apply N; simpl; auto.
  - intros w Hw. apply N; simpl; auto.
Qed.

(** Allocation during a collection. *)
Lemma alloc_GI : forall A cap h f (B : bmap) c h' b (B' : bmap),
  GI A h f B -> alloc cap h c = Some (h', b) ->
  (forall a l, B' a l <-> B a l \/ (a = b /\ exists ps vs, c = KA ps /\ znth A l = Some vs
                                     /\ Forall2 (vrel h B) ps vs /\ B' b l)) ->
  (forall l l', B' b l -> B' b l' -> l = l') ->
  (forall a l, B' b l -> fst a = sp_to h -> B a l -> False) ->
  forall f',
  (forall x y, fwd_find f' x = Some y ->
     fwd_find f x = Some y \/ (y = b /\ Clean h' (Some b) /\ exists l, B' x l /\ B' b l)) ->
  (forall x y, fwd_find f x = Some y -> fwd_find f' x = Some y) ->
  (forall a l, fst a = sp_from h -> B a l -> B' b l -> fwd_find f' a = Some b) ->
  GI A h' f' B'.
Proof.
  intros A cap h f B c h' b B' G E HB Hfun Hnew f' Hf Hf2 Hf3.
  destruct G as [W Fn Ob In Cr Fw].
  destruct (alloc_spec _ _ _ _ _ W E) as (W' & Fb & Rn & Rb & Ro & Fl & _).
  assert (T : sp_to h' = sp_to h) by (unfold sp_to; congruence).
  assert (Fm : sp_from h' = sp_from h) by (unfold sp_from; congruence).
  assert (NB : forall l, ~ B b l).
  { intros l Hl. apply Ob in Hl as (ps & vs & R & _). congruence. }
  assert (SP : sp_from h <> sp_to h) by (unfold sp_from, sp_to; destruct (g_flip h); discriminate).
  assert (SC : forall a s, read h a = Some (KS s) -> read h' a = Some (KS s)).
  { intros a s R. rewrite Ro; auto. congruence. }
  assert (EX : forall a l, B a l -> B' a l) by (intros; apply HB; auto).
  constructor; auto.
  - intros a l l' H1 H2. apply HB in H1 as [H1|(-> & Q1)]; apply HB in H2 as [H2|(Q & Q2)];
      eauto; try (exfalso; subst; eapply NB; eauto; fail).
    destruct Q1 as (? & ? & ? & ? & ? & Q1), Q2 as (? & ? & ? & ? & ? & Q2). eauto.
  - intros a l H. apply HB in H as [H|(-> & ps & vs & -> & Z & F2 & Q)].
    + destruct (Ob a l H) as (ps & vs & R & Z & F2). exists ps, vs. split; [|split]; auto.
      * rewrite Ro; auto. intros ->. congruence.
      * eapply Forall2_imp; [|exact F2]. intros p v. apply vrel_mono; auto.
    + exists ps, vs. split; [|split]; auto.
      eapply Forall2_imp; [|exact F2]. intros p v. apply vrel_mono; auto.
  - intros a a' l S H1 H2.
    apply HB in H1 as [H1|(-> & Q1)]; apply HB in H2 as [H2|(-> & Q2)]; auto.
    + eauto.
    + destruct Q2 as (? & ? & ? & ? & ? & Q2). exfalso. apply (Hnew a l); auto; congruence.
    + destruct Q1 as (? & ? & ? & ? & ? & Q1). exfalso. apply (Hnew a' l); auto; congruence.
  - rewrite T, Fm. intros a a' l S1 S2 H1 H2.
    apply HB in H1 as [H1|(-> & Q1)].
    + apply HB in H2 as [H2|(-> & Q2)].
      * apply Hf2. eapply Cr; eauto.
      * destruct Q2 as (? & ? & ? & ? & ? & Q2). eauto.
    + exfalso. congruence.
  - rewrite T. intros x y Q. apply Hf in Q as [Q|(-> & C & Q)].
    + apply Fw in Q as (S & [k C] & l & L1 & L2). split; auto. split; eauto.
      exists k. eapply clean_grow; [..|exact C]; auto.
      intros a Na. apply Ro. intros ->. congruence.
    + auto.
Qed.

Lemma cstr_nonul : forall t, ~ In 0 t -> cstr t = t.
Proof.
  induction t as [|c t IH]; simpl; intros H; auto.
  destruct (c =? 0) eqn:E; [exfalso; apply H; left; lia|]. rewrite IH; auto.
Qed.

Lemma trace1_spec : forall A cap n rec,
  traces A n rec ->
  forall h f B p v h' f' p',
    GI A h f B -> vrel h B p v ->
    trace1 cap rec h f p = Ok (h', f', p') ->
    adepth (S n) A v /\
    exists B', TP A [v] h f B h' f' B' /\ vrel h' B' p' v /\ Clean h' p' /\
               keeps (sp_to h) p p'.
Proof.
  intros A cap n rec HR h f B p v h' f' p' G V E.
  destruct p as [a|]; simpl in E.
  2:{ injection E as <- <- <-. destruct v; try contradiction. split; [simpl; auto|].
      exists B. split; [apply TP_refl; auto|]. split; [simpl; auto|]. split; [exists O; simpl; auto|].
      simpl; auto. }
  assert (SP : sp_from h <> sp_to h) by (unfold sp_from, sp_to; destruct (g_flip h); discriminate).
  destruct v as [|s|l]; simpl in V; [contradiction| |].
  - (* scalar *)
    destruct V as [R SO]. rewrite R in E. split; [simpl; auto|].
    destruct (eqb (fst a) (sp_to h)) eqn:Q.
    + apply eqb_prop in Q. injection E as <- <- <-. exists B.
      split; [apply TP_refl; auto|]. split; [simpl; auto|].
      split; [eapply clean_scalar; eauto|simpl; auto].
    + apply bind_ok in E as ([] & _ & E). apply bind_ok in E as ([h1 b] & E1 & E).
      injection E as <- <- <-. unfold trace_alloc in E1.
      destruct (alloc cap h (KS s)) as [[h2 b2]|] eqn:EA; [|discriminate].
      injection E1 as <- <-.
      destruct (alloc_spec _ _ _ _ _ (gi_wf _ _ _ _ G) EA) as (W' & Fb & Rn & Rb & Ro & Fl & _).
      assert (T : sp_to h2 = sp_to h) by (unfold sp_to; congruence).
      assert (NB : forall l, ~ B b2 l).
      { intros l Hl. apply (gi_obj _ _ _ _ G) in Hl as (? & ? & R' & _). congruence. }
      exists B. split; [constructor|split; [|split]].
      * eapply alloc_GI with (f' := f); eauto.
        -- intros x k; split; auto. intros [H|(-> & ? & ? & ? & ? & ? & H)]; auto.
        -- intros; eapply (gi_fun _ _ _ _ G); eauto.
        -- intros x k Hb. exfalso. eapply NB; eauto.
        -- intros x k _ _ Hb. exfalso. eapply NB; eauto.
      * exact Fl.
      * auto.
      * intros x t Rx. rewrite Ro; auto. congruence.
      * intros x [k C]. exists k. eapply clean_grow; [..|exact C]; auto.
        intros y Ny. apply Ro. intros ->. congruence.
      * intros x k Bx _. apply Ro. intros ->. eapply NB; eauto.
      * simpl. split; auto.
      * eapply clean_scalar; [|exact Rb]. congruence.
      * simpl. intros Q2. rewrite Q2, eqb_reflx in Q. discriminate.
  - (* array *)
    destruct (gi_obj _ _ _ _ G a l V) as (ps & vs & R & Z & F2). rewrite R in E.
    apply bind_ok in E as ([[h1 f1] ps1] & E1 & E).
    destruct (HR _ _ _ _ _ _ _ _ G F2 E1) as (D & B1 & TP1 & F21 & C1 & K1).
    split; [simpl; rewrite Z; auto|].
    destruct TP1 as [G1 Fl1 Ex1 Sc1 Cl1 Mo1].
    assert (T1 : sp_to h1 = sp_to h) by (unfold sp_to; congruence).
    assert (Fr1 : sp_from h1 = sp_from h) by (unfold sp_from; congruence).
    assert (R1 : read h1 a = Some (KA ps)).
    { rewrite (Mo1 a l); auto. eapply adepth_acyclic_list; eauto. }
    set (h2 := write h1 a (KA ps1)) in *.
    assert (WC : forall j, clean j h1 (Some a) -> read h1 a = Some (KA ps1)).
    { intros j Cj. rewrite R1. do 2 f_equal. destruct j; simpl in Cj; rewrite R1 in Cj; [tauto|].
      destruct Cj as [_ Cj]. clear - K1 Cj T1. induction K1; auto. inversion Cj; subst.
      f_equal; auto. destruct x as [x|]; simpl in *; auto.
      destruct j; simpl in *; symmetry; apply H; rewrite <- T1; tauto. }
    assert (CL2 : forall q, Clean h1 q -> Clean h2 q).
    { intros q [k Cq]. exists k. apply clean_write; auto. }
    assert (SC2 : forall x s, read h1 x = Some (KS s) -> read h2 x = Some (KS s)).
    { intros x s Rx. unfold h2. rewrite read_write_other; auto. congruence. }
    assert (F22 : Forall2 (vrel h2 B1) ps1 vs).
    { eapply Forall2_imp; [|exact F21]. intros q w. apply vrel_mono; auto. }
    assert (Fl2 : g_flip h2 = g_flip h1) by reflexivity.
    assert (G2 : GI A h2 f1 B1).
    { destruct G1 as [W Fn Ob In Cr Fw]. constructor; auto.
      - eapply wfh_write; eauto. cbn [cell_size]. apply Forall2_zlen in K1. lia.
      - intros x k Bx. destruct (addr_dec x a) as [->|N].
        + exists ps1, vs. split; [apply read_write_same|]. split; auto.
          now rewrite <- (Fn a l k (Ex1 _ _ V) Bx).
        + destruct (Ob x k Bx) as (qs & ws & Rx & Zx & Fx). exists qs, ws.
          split; [unfold h2; rewrite read_write_other; auto|]. split; auto.
          eapply Forall2_imp; [|exact Fx]. intros q w. apply vrel_mono; auto.
      - intros x y Q. apply Fw in Q as (S & C & Q). split; auto. }
    assert (CP2 : Forall (Clean h2) ps1).
    { eapply Forall_impl; [|exact C1]. auto. }
    assert (MO2 : forall x k, B x k -> (forall w, In w [AArr l] -> ~ areach A w k) ->
                  read h2 x = read h x).
    { intros x k Bx N. unfold h2. rewrite read_write_other.
      - apply Mo1 with (l := k); auto. intros w Hw Rw. apply (N (AArr l)); simpl; auto.
        eapply ar_step; eauto.
      - intros ->. apply (N (AArr l)); simpl; auto.
        rewrite (gi_fun _ _ _ _ G a l k V Bx). constructor. }
    change (sp_to h2) with (sp_to h1) in E. rewrite T1 in E.
    destruct (eqb (fst a) (sp_to h)) eqn:Q.
    + (* already in the "to" arena *)
      apply eqb_prop in Q. injection E as <- <- <-. exists B1.
      split; [constructor; auto|]. split; [simpl; auto|]. split; [|simpl; auto].
      eapply Clean_arr; [|apply read_write_same|exact CP2].
      rewrite Q. unfold sp_to. now rewrite Fl2, Fl1.
    + assert (Q' : fst a <> sp_to h) by (intros C; rewrite C, eqb_reflx in Q; discriminate).
      assert (QF : fst a = sp_from h).
      { unfold sp_from, sp_to in *. destruct (fst a), (g_flip h); simpl in *; auto; congruence. }
      destruct (fwd_find f1 a) as [b|] eqn:FF.
      * (* forwarded *)
        injection E as <- <- <-. exists B1.
        split; [constructor; auto|].
        destruct (gi_fwd _ _ _ _ G2 _ _ FF) as (S & C & k & K2 & K3).
        split; [simpl; rewrite (gi_fun _ _ _ _ G2 a l k); auto|].
        split; [exact C|]. simpl. congruence.
      * (* move it *)
        apply bind_ok in E as ([h3 b] & E3 & E). injection E as <- <- <-.
        unfold trace_alloc in E3.
        destruct (alloc cap h2 (KA ps1)) as [[h4 b4]|] eqn:EA; [|discriminate].
        injection E3 as <- <-.
        destruct (alloc_spec _ _ _ _ _ (gi_wf _ _ _ _ G2) EA) as (W' & Fb & Rn & Rb & Ro & Fl & _).
        change (sp_to h2) with (sp_to h1) in Fb. rewrite T1 in Fb.
        assert (T4 : sp_to h4 = sp_to h) by (unfold sp_to; rewrite Fl, Fl2, Fl1; auto).
        assert (NB : forall k, ~ B1 b4 k).
        { intros k Hk. apply (gi_obj _ _ _ _ G2) in Hk as (? & ? & R' & _). congruence. }
        set (B4 := fun x k => B1 x k \/ (x = b4 /\ k = l)).
        assert (EX4 : forall x k, B1 x k -> B4 x k) by (unfold B4; auto).
        assert (SC4 : forall x s, read h2 x = Some (KS s) -> read h4 x = Some (KS s)).
        { intros x s Rx. rewrite Ro; auto. congruence. }
        assert (CL4 : forall q, Clean h2 q -> Clean h4 q).
        { intros q [k C]. exists k. eapply clean_grow; [..|exact C]; auto.
          intros y Ny. apply Ro. intros ->. congruence. }
        assert (CB : Clean h4 (Some b4)).
        { eapply Clean_arr; [|exact Rb|]; [congruence|].
          eapply Forall_impl; [|exact CP2]. auto. }
        exists B4. split; [constructor|split; [|split]].
        -- eapply alloc_GI with (B := B1) (f := f1) (h := h2); eauto.
           ++ intros x k. unfold B4. split.
              ** intros [H|[-> ->]]; auto. right. split; auto. exists ps1, vs. auto 6.
              ** intros [H|(-> & ? & ? & ? & ? & ? & H)]; auto.
           ++ intros k k' [H|[_ ->]] [H'|[_ ->]]; auto; exfalso; eapply NB; eauto.
           ++ intros x k [H|[_ ->]] Sx Bx; [eapply NB; eauto|].
              assert (X : fwd_find f1 a = Some x); [|congruence].
              eapply (gi_cross _ _ _ _ G2); eauto.
           ++ intros x y. simpl. unfold fwd_find. cbn [find fst snd].
              destruct (addr_eqb a x) eqn:QX; auto.
              intros H; injection H as <-. right. apply addr_eqb_eq in QX. subst x.
              split; auto. split; auto. exists l. unfold B4. auto.
           ++ intros x y H. unfold fwd_find. cbn [find fst snd].
              destruct (addr_eqb a x) eqn:QX; auto.
              apply addr_eqb_eq in QX. subst x. congruence.
           ++ intros x k Sx Bx [H|[_ ->]]; [exfalso; eapply NB; eauto|].
              assert (x = a).
              { eapply (gi_inj _ _ _ _ G2); eauto. }
              subst x. unfold fwd_find. cbn [find fst snd]. now rewrite addr_eqb_refl.
        -- congruence.
        -- auto.
        -- intros x s Rx. auto.
        -- intros q Cq. auto.
        -- intros x k Bx N. rewrite Ro; [apply (MO2 x k); auto|]. intros ->. eapply NB; eauto.
        -- simpl. unfold B4. auto.
        -- exact CB.
        -- simpl. congruence.
Qed.

Lemma trace_list_spec : forall A cap n rec,
  traces A n rec -> traces A (S n) (trace_list cap rec).
Proof.
  intros A cap n rec HR h f B ps. revert h f B.
  induction ps as [|p ps IH]; intros h f B vs h' f' ps' G F E; simpl in E.
  - injection E as <- <- <-. inversion F; subst. split; auto. exists B.
    split; [apply TP_refl; auto|]. auto.
  - inversion F as [|? v ? vs' V F']; subst.
    apply bind_ok in E as ([[h1 f1] p1] & E1 & E).
    apply bind_ok in E as ([[h2 f2] ps2] & E2 & E). injection E as <- <- <-.
    destruct (trace1_spec A cap n rec HR _ _ _ _ _ _ _ _ G V E1) as (D & B1 & TP1 & V1 & C1 & K1).
    assert (F1 : Forall2 (vrel h1 B1) ps vs').
    { eapply Forall2_imp; [|exact F']. intros q w. apply vrel_mono; apply TP1. }
    destruct (IH _ _ _ _ _ _ _ (tp_gi _ _ _ _ _ _ _ _ TP1) F1 E2) as (D2 & B2 & TP2 & F2 & C2 & K2).
    split; [constructor; auto|]. exists B2.
    split; [eapply TP_trans; eauto|]. split; [|split].
    + constructor; auto. eapply vrel_mono; [apply TP2|apply TP2|exact V1].
    + constructor; auto. apply TP2; auto.
    + constructor; auto.
      replace (sp_to h) with (sp_to h1); auto. unfold sp_to. now rewrite (tp_flip _ _ _ _ _ _ _ _ TP1).
Qed.

Lemma trace_spec : forall A cap n, traces A n (trace cap n).
Proof.
  intros A cap. induction n as [|n IH].
  - intros h f B ps vs h' f' ps' _ _ E. discriminate.
  - apply trace_list_spec. exact IH.
Qed.

Lemma trace_roots_spec : forall A cap n rs h f B vss h' f' rs',
  GI A h f B -> Forall2 (Forall2 (vrel h B)) rs vss ->
  trace_roots cap n h f rs = Ok (h', f', rs') ->
  Forall (Forall (adepth n A)) vss /\
  exists B', GI A h' f' B' /\ g_flip h' = g_flip h /\
    (forall a l, B a l -> B' a l) /\
    (forall a s, read h a = Some (KS s) -> read h' a = Some (KS s)) /\
    (forall p, Clean h p -> Clean h' p) /\
    Forall2 (Forall2 (vrel h' B')) rs' vss /\ Forall (Forall (Clean h')) rs'.
Proof.
  intros A cap n. induction rs as [|r rs IH]; intros h f B vss h' f' rs' G F E; cbn [trace_roots] in E.
  - injection E as <- <- <-. inversion F; subst. split; auto. exists B. auto 8.
  - inversion F as [|? v ? vs' V F']; subst.
    apply bind_ok in E as ([[h1 f1] p1] & E1 & E).
    apply bind_ok in E as ([[h2 f2] ps2] & E2 & E). injection E as <- <- <-.
    destruct (trace_spec A cap n _ _ _ _ _ _ _ _ G V E1) as (D & B1 & TP1 & V1 & C1 & K1).
    assert (F1 : Forall2 (Forall2 (vrel h1 B1)) rs vs').
    { eapply Forall2_imp; [|exact F']. intros q w. apply Forall2_imp.
      intros ? ?; apply vrel_mono; apply TP1. }
    destruct (IH _ _ _ _ _ _ _ (tp_gi _ _ _ _ _ _ _ _ TP1) F1 E2)
      as (D2 & B2 & G2 & Fl2 & Ex2 & Sc2 & Cl2 & F2 & C2).
    destruct TP1.
    split; [constructor; auto|]. exists B2. do 5 (split; [first [congruence|auto]|]). split.
    + constructor; auto. eapply Forall2_imp; [|exact V1]. intros ? ?. apply vrel_mono; auto.
    + constructor; auto. eapply Forall_impl; [|exact C1]. auto.
Qed.

Lemma clean_flip : forall k h p, clean k h p ->
  match p with None => True | Some a => fst a = sp_from (flip h) /\ read (flip h) a = read h a end.
Proof.
  intros k h [a|] C; auto. destruct k; simpl in C; destruct C as [C _];
  unfold flip, read, sp_from, sp_to in *; simpl; rewrite C; destruct (g_flip h); simpl; auto.
Qed.

Lemma collect_spec : forall A cap n h B rs vss h' rs',
  HR A h B -> Forall2 (Forall2 (vrel h B)) rs vss ->
  collect cap n h rs = Ok (h', rs') ->
  Forall (Forall (adepth n A)) vss /\
  exists B', HR A h' B' /\ Forall2 (Forall2 (vrel h' B')) rs' vss /\
             sp_to h' = sp_from h /\ g_head h' (sp_to h') = 0.
Proof.
  intros A cap n h B rs vss h' rs' [W Fn In Ob] F E.
  unfold collect in E. apply bind_ok in E as ([[h1 f1] rs1] & E1 & E).
  injection E as <- <-.
  assert (SP : sp_from h <> sp_to h) by (unfold sp_from, sp_to; destruct (g_flip h); discriminate).
  assert (G : GI A h [] B).
  { constructor; auto.
    - intros; eauto.
    - intros a b l S1 S2 H1 H2. exfalso. pose proof (In _ _ _ H1 H2). congruence.
    - discriminate. }
  destruct (trace_roots_spec _ _ _ _ _ _ _ _ _ _ _ G F E1)
    as (D & B1 & [W1 Fn1 Ob1 In1 Cr1 Fw1] & Fl1 & Ex1 & Sc1 & Cl1 & F1 & C1).
  split; auto.
  set (B2 := fun a l => B1 a l /\ fst a = sp_to h1 /\ Clean h1 (Some a)).
  assert (CV : forall p v, Clean h1 p -> vrel h1 B1 p v -> vrel (flip h1) B2 p v).
  { intros [a|] [|s|l] C V; simpl in *; auto.
    - destruct V as [V S]. split; auto. destruct C as [k C]. apply clean_flip in C as [_ C].
      congruence.
    - destruct C as [k C]. unfold B2. split; auto. split; [|exists k; auto].
      destruct k; simpl in C; tauto. }
  exists B2. split; [constructor|split; [|split]].
  - destruct W1 as [H0 W1]. split.
    + intros s; simpl. destruct (eqb s (g_flip h1)); auto. lia.
    + intros s o c; simpl. destruct (eqb s (g_flip h1)); [discriminate|]. auto.
  - intros a l l' [H _] [H' _]. eauto.
  - intros a b l (H & S & _) (H' & S' & _). apply (In1 a b l); auto; congruence.
  - intros a l (H & S & [k C]). destruct (Ob1 a l H) as (ps & vs & R & Z & F2).
    exists ps, vs. split; [|split]; auto.
    + pose proof (clean_flip _ _ _ C) as [_ Q]. congruence.
    + destruct k; simpl in C; rewrite R in C; [tauto|]. destruct C as [_ C].
      clear - F2 C CV. induction F2; constructor; inversion C; subst; auto.
      apply CV; auto. exists k; auto.
  - clear - F1 C1 CV. induction F1 as [|r vs rs1 vss F2 F1 IH]; constructor; inversion C1; subst; auto.
    clear - F2 CV H1. induction F2; constructor; inversion H1; subst; auto.
  - unfold flip, sp_to, sp_from; simpl. rewrite Fl1. now destruct (g_flip h).
  - unfold flip, sp_to; simpl. now destruct (g_flip h1).
Qed.

(** ** A collection can only fail by running out of space or by not ending *)
Definition gc_fail {X} (r : res X) : Prop :=
  match r with
  | Ok _ => True
  | Stuck SOomGc => True
  | Stuck SDiverge => True
  | _ => False
  end.

Lemma gc_fail_bind : forall {X Y} (m : res X) (k : X -> res Y),
  gc_fail m -> (forall x, m = Ok x -> gc_fail (k x)) -> gc_fail (bind m k).
Proof. intros X Y [x|e l|[]] k H K; simpl in *; auto. Qed.

Definition safe_tracer (A : aheap) (rec : tracer) : Prop :=
  forall h f B ps vs, GI A h f B -> Forall2 (vrel h B) ps vs -> gc_fail (rec h f ps).

Lemma trace1_safe : forall A cap rec,
  safe_tracer A rec ->
  forall h f B p v, GI A h f B -> vrel h B p v -> gc_fail (trace1 cap rec h f p).
Proof.
  intros A cap rec SR h f B p v G V.
  destruct p as [a|]; simpl; auto.
  destruct v as [|s|l]; simpl in V; [contradiction| |].
  - destruct V as [R SO]. rewrite R. destruct (eqb _ _); simpl; auto.
    assert (Q : (match s with SStr t => assert_ (zlen (cstr t) =? zlen t) | _ => Ok tt end) = Ok tt).
    { destruct s; auto. simpl in SO. rewrite cstr_nonul by auto. unfold assert_.
      now rewrite Z.eqb_refl. }
    rewrite Q. simpl. unfold trace_alloc. destruct (alloc cap h (KS s)) as [[]|]; simpl; auto.
  - destruct (gi_obj _ _ _ _ G a l V) as (ps & vs & R & Z & F2). rewrite R.
    apply gc_fail_bind; [eapply SR; eauto|]. intros [[h1 f1] ps1] E.
    destruct (eqb _ _); simpl; auto. destruct (fwd_find f1 a); simpl; auto.
    unfold trace_alloc. destruct (alloc _ _ _) as [[]|]; simpl; auto.
Qed.

Lemma trace_safe : forall A cap n, safe_tracer A (trace cap n).
Proof.
  intros A cap. induction n as [|n IH]; intros h f B ps vs G F; simpl; auto.
  revert h f B vs G F. induction ps as [|p ps IHp]; intros h f B vs G F; simpl; auto.
  inversion F as [|? v ? vs' V F']; subst.
  apply gc_fail_bind; [eapply trace1_safe; eauto|]. intros [[h1 f1] p1] E1.
  destruct (trace1_spec A cap n _ (trace_spec A cap n) _ _ _ _ _ _ _ _ G V E1)
    as (D & B1 & TP1 & V1 & C1 & K1).
  apply gc_fail_bind; [|intros [[]]; simpl; auto].
  eapply IHp with (B := B1); [apply TP1|].
  eapply Forall2_imp; [|exact F']. intros q w. apply vrel_mono; apply TP1.
Qed.

Lemma collect_safe : forall A cap n h B rs vss,
  HR A h B -> Forall2 (Forall2 (vrel h B)) rs vss -> gc_fail (collect cap n h rs).
Proof.
  intros A cap n h B rs vss [W Fn In Ob] F. unfold collect.
  assert (SP : sp_from h <> sp_to h) by (unfold sp_from, sp_to; destruct (g_flip h); discriminate).
  assert (G : GI A h [] B).
  { constructor; auto.
    - intros; eauto.
    - intros a b l S1 S2 H1 H2. exfalso. pose proof (In _ _ _ H1 H2). congruence.
    - discriminate. }
  apply gc_fail_bind; [|intros [[]]; simpl; auto].
  clear W Fn In Ob SP. revert h B vss F G. generalize (@nil (addr * addr)) as f.
  induction rs as [|r rs IH]; intros f h B vss F G; simpl; auto.
  inversion F as [|? v ? vs' V F']; subst.
  apply gc_fail_bind; [eapply trace_safe; eauto|]. intros [[h1 f1] p1] E1.
  destruct (trace_spec A cap n _ _ _ _ _ _ _ _ G V E1) as (D & B1 & TP1 & V1 & C1 & K1).
  apply gc_fail_bind; [|intros [[]]; simpl; auto].
  eapply IH with (B := B1); [|apply TP1].
  eapply Forall2_imp; [|exact F']. intros q w. apply Forall2_imp.
  intros ? ?; apply vrel_mono; apply TP1.
Qed.
