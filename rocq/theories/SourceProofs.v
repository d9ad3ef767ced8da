(** Proofs about source texts and paths. *)
From Coq Require Import ZArith List Bool Lia ZifyBool.
From Verif Require Import Base BaseFacts Source.
Import ListNotations.
Open Scope Z_scope.

Lemma cstr_nonul : forall s, ~ In 0 s -> cstr s = s.
Proof.
  induction s as [|c s IH]; intros H; simpl; auto.
  destruct (c =? 0) eqn:E.
  - exfalso. apply H. left. lia.
  - rewrite IH; auto. intros C. apply H. now right.
Qed.

(** Lines of a text: the last one has no newline, the others end in their only
    newline. *)
Fixpoint split_nl (s : bytes) : list bytes :=
  match s with
  | [] => [[]]
  | c :: r =>
      if c =? 10 then [c] :: split_nl r
      else match split_nl r with
           | [] => [[c]]
           | l :: ls => (c :: l) :: ls
           end
  end.

Lemma split_nl_nonnil : forall s, split_nl s <> [].
Proof.
  destruct s as [|c r]; simpl; [discriminate|].
  destruct (c =? 10); [discriminate|]. destruct (split_nl r); discriminate.
Qed.
Lemma concat_split_nl : forall s, concat (split_nl s) = s.
Proof.
  induction s as [|c r IH]; simpl; auto.
  destruct (c =? 10); simpl; [now rewrite IH|].
  destruct (split_nl r) eqn:E; [exfalso; eapply split_nl_nonnil; eauto|].
  simpl in *. now rewrite IH.
Qed.

Lemma split_nl_shape : forall s, exists ini last,
  split_nl s = ini ++ [last] /\
  Forall (fun l => exists b, l = b ++ [10] /\ ~ In 10 b) ini /\ ~ In 10 last.
Proof.
  induction s as [|c r (ini & last & E & F & N)]; simpl.
  - exists [], []. repeat split; auto.
  - destruct (c =? 10) eqn:C.
    + exists ([c] :: ini), last. rewrite E. repeat split; auto.
      constructor; auto. exists []. split; auto. simpl. f_equal. lia.
    + rewrite E. destruct ini as [|l ini]; simpl.
      * exists [], (c :: last). repeat split; auto. intros [H|H]; [lia|tauto].
      * inversion F as [|? ? (b & -> & Nb) F']; subst.
        exists ((c :: b ++ [10]) :: ini), last. repeat split; auto.
        constructor; auto. exists (c :: b). split; auto. intros [H|H]; [lia|tauto].
Qed.

(** Offsets of the lines. *)
Fixpoint starts (ls : list bytes) (off : Z) : list Z :=
  match ls with
  | [] => []
  | l :: r => off :: starts r (off + zlen l)
  end.
Lemma zlen_starts : forall ls off, zlen (starts ls off) = zlen ls.
Proof. induction ls; intros; simpl; auto. rewrite !zlen_cons. now rewrite IHls. Qed.

Lemma gen_lines_starts : forall s off,
  off :: gen_lines_from s off = starts (split_nl s) off.
Proof.
  assert (H : forall s off off', off' :: gen_lines_from s off =
            match split_nl s with [] => [] | l :: ls => off' :: starts ls (off + zlen l) end).
  { induction s as [|c r IH]; intros off off'; simpl; auto.
    destruct (c =? 10) eqn:C.
    - change (zlen [c]) with 1. f_equal.
      rewrite (IH (off + 1) (off + 1)).
      destruct (split_nl r) eqn:E; [exfalso; eapply split_nl_nonnil; eauto|]. reflexivity.
    - rewrite (IH (off + 1) off').
      destruct (split_nl r) eqn:E; [exfalso; eapply split_nl_nonnil; eauto|].
      rewrite zlen_cons. do 2 f_equal. lia. }
  intros s off. rewrite H.
  destruct (split_nl s) eqn:E; [exfalso; eapply split_nl_nonnil; eauto|]. reflexivity.
Qed.

Lemma starts_get : forall ls off i l,
  znth ls i = Some l ->
  exists a pre post, znth (starts ls off) i = Some a /\
    concat ls = pre ++ l ++ post /\ a = off + zlen pre /\
    (i + 1 < zlen ls -> znth (starts ls off) (i + 1) = Some (a + zlen l)) /\
    (i + 1 = zlen ls -> post = []).
Proof.
  induction ls as [|x ls IH]; intros off i l H; simpl in H; [discriminate|].
  destruct (i =? 0) eqn:E.
  - injection H as ->. exists off, [], (concat ls). simpl. rewrite E.
    repeat split; auto.
    + rewrite zlen_nil; lia.
    + intros L. destruct (i + 1 =? 0) eqn:E2; [lia|]. rewrite zlen_cons in L.
      destruct ls as [|y ls]; [rewrite zlen_nil in L; lia|]. simpl.
      destruct (i + 1 - 1 =? 0) eqn:E3; [reflexivity|lia].
    + intros L. rewrite zlen_cons in L.
      assert (ls = []) as -> by (apply zlen_0_nil; lia). reflexivity.
  - destruct (IH (off + zlen x) (i - 1) l H) as (a & pre & post & A & B & C & D & F).
    exists a, (x ++ pre), post. simpl. rewrite E. repeat split; auto.
    + rewrite B, <- app_assoc. reflexivity.
    + rewrite zlen_app. lia.
    + intros L. destruct (i + 1 =? 0) eqn:E2; [apply znth_some in H; lia|].
      rewrite zlen_cons in L. replace (i + 1 - 1) with (i - 1 + 1) by lia. apply D. lia.
    + intros L. rewrite zlen_cons in L. apply F. lia.
Qed.

Lemma get_line_spec : forall t k, ~ In 0 t -> t <> [] -> 1 <= k ->
  get_line (snd (load_from_string t)) k = Ok (znth (split_nl t) (k - 1)).
Proof.
  intros t k N NN K. unfold load_from_string. rewrite cstr_nonul by auto.
  destruct t as [|c r] eqn:Et; [congruence|]. rewrite <- Et in *. clear Et c r.
  unfold get_line. cbn [snd so_lines so_data].
  unfold assert_. destruct (1 <=? k) eqn:E; [|lia]. cbn [bind].
  unfold gen_lines. rewrite cstr_nonul by auto. rewrite gen_lines_starts, zlen_starts.
  set (ls := split_nl t).
  destruct (znth ls (k - 1)) as [l|] eqn:Z.
  - destruct (starts_get ls 0 (k - 1) l Z) as (a & pre & post & A & B & C & D & F).
    pose proof (znth_some _ _ _ Z) as R.
    assert (T : t = pre ++ l ++ post) by (rewrite <- B; symmetry; apply concat_split_nl).
    rewrite A. destruct (k - 1 + 1 =? zlen ls) eqn:E2.
    + rewrite F in T by lia. rewrite app_nil_r in T. rewrite T, C.
      replace (0 + zlen pre) with (zlen pre) by lia. rewrite zskipn_app.
      rewrite cstr_nonul; auto. intros Q. apply N. rewrite T. apply in_or_app. now right.
    + destruct (k - 1 <? zlen ls) eqn:E3; [|lia]. rewrite D by lia.
      rewrite T, C. replace (0 + zlen pre) with (zlen pre) by lia. rewrite zskipn_app.
      replace (zlen pre + zlen l - zlen pre) with (zlen l) by lia. now rewrite zfirstn_app.
  - pose proof (proj1 (znth_none _ _) Z) as R.
    destruct (k - 1 + 1 =? zlen ls) eqn:E2; [lia|].
    destruct (k - 1 <? zlen ls) eqn:E3; [lia|]. reflexivity.
Qed.

Lemma get_line_zero : forall s, get_line s 0 = Stuck SAssert.
Proof. reflexivity. Qed.

(** Paths *)
Definition same_char (a b : Z) : Prop :=
  tolower a = tolower b \/ (a = 92 /\ b = 47) \/ (a = 47 /\ b = 92).

Lemma path_cmp_iff : forall x y,
  path_cmp x y = true <-> exists p r, y = p ++ r /\ Forall2 same_char x p.
Proof.
  induction x as [|a x IH]; intros y; simpl; split.
  - intros _. exists [], y. auto.
  - auto.
  - destruct y as [|b y]; [discriminate|]. intros H.
    assert (G : same_char a b /\ path_cmp x y = true).
    { unfold same_char. destruct (tolower a =? tolower b) eqn:E1; [split; [lia|auto]|].
      destruct ((a =? 92) && (b =? 47)) eqn:E2; [split; [lia|auto]|].
      destruct ((a =? 47) && (b =? 92)) eqn:E3; [split; [lia|auto]|discriminate]. }
    destruct G as [G1 G2]. apply IH in G2 as (p & r & -> & F).
    exists (b :: p), r. split; auto.
  - intros (p & r & -> & F). inversion F as [|? b ? p' S F']; subst. simpl.
    assert (G : path_cmp x (p' ++ r) = true) by (apply IH; eauto).
    unfold same_char in S.
    destruct (tolower a =? tolower b) eqn:E1; auto.
    destruct ((a =? 92) && (b =? 47)) eqn:E2; auto.
    destruct ((a =? 47) && (b =? 92)) eqn:E3; auto. lia.
Qed.

Definition already (m : list source_t) (path : bytes) : Prop :=
  exists s p r, In s m /\ path = p ++ r /\ Forall2 same_char (so_path s) p.

Lemma sm_load_already : forall fs m path, already m path -> sm_load fs m path = (true, m).
Proof.
  intros fs m path (s & p & r & I & -> & F). unfold sm_load.
  replace (existsb _ m) with true; auto. symmetry. apply existsb_exists.
  exists s. split; auto. apply path_cmp_iff. eauto.
Qed.
Lemma sm_load_fresh : forall fs m path, ~ already m path ->
  sm_load fs m path = (fst (load_from_file fs path), m ++ [snd (load_from_file fs path)]).
Proof.
  intros fs m path N. unfold sm_load.
  destruct (existsb _ m) eqn:E.
  - exfalso. apply N. apply existsb_exists in E as (s & I & C).
    apply path_cmp_iff in C as (p & r & -> & F). exists s, p, r. auto.
  - destruct (load_from_file fs path); reflexivity.
Qed.
Lemma sm_load_fail_poison : forall fs m path m' fs' path',
  sm_load fs m path = (false, m') -> sm_load fs' m' path' = (true, m').
Proof.
  intros fs m path m' fs' path' H. unfold sm_load in H.
  destruct (existsb _ m) eqn:E; [discriminate|].
  assert (P : snd (load_from_file fs path) = so_empty).
  { destruct (load_from_file fs path) as [ok s] eqn:L. injection H as -> _.
    unfold load_from_file in L. destruct (fs path) as [[|]|]; injection L; auto; congruence. }
  apply sm_load_already. exists so_empty, [], path'.
  split; [|split; [reflexivity|constructor]].
  destruct (load_from_file fs path) as [ok s]. injection H as -> <-.
  simpl in P. subst. apply in_or_app. right. now left.
Qed.

Lemma rfind_none : forall s c i, ~ In c s -> rfind s c i = None.
Proof.
  induction s as [|d s IH]; intros c i H; simpl; auto.
  rewrite IH by (intros C; apply H; now right).
  destruct (d =? c) eqn:E; auto. exfalso. apply H. left. lia.
Qed.
Lemma rfind_last : forall a c b i, ~ In c b -> rfind (a ++ c :: b) c i = Some (i + zlen a).
Proof.
  induction a as [|d a IH]; intros c b i H; simpl.
  - rewrite rfind_none by auto. rewrite Z.eqb_refl, zlen_nil. f_equal; lia.
  - rewrite IH by auto. rewrite zlen_cons. f_equal; lia.
Qed.
Lemma rfind_bound : forall s c i j, rfind s c i = Some j -> i <= j < i + zlen s.
Proof.
  induction s as [|d s IH]; intros c i j H; simpl in H; [discriminate|].
  rewrite zlen_cons. pose proof (zlen_nonneg s).
  destruct (rfind s c (i + 1)) eqn:E.
  - injection H as ->. apply IH in E. lia.
  - destruct (d =? c); [|discriminate]. injection H as ->. lia.
Qed.
Lemma rfind_app_none : forall a b c i, ~ In c b -> rfind (a ++ b) c i = rfind a c i.
Proof.
  induction a as [|d a IH]; intros b c i H; simpl.
  - now apply rfind_none.
  - now rewrite IH by auto.
Qed.

Lemma base_path_split : forall dir sep file,
  sep = 47 \/ sep = 92 -> ~ In 47 file -> ~ In 92 file ->
  base_path (dir ++ sep :: file) = dir.
Proof.
  intros dir sep file S N1 N2. unfold base_path.
  assert (B : forall c, c <> sep -> ~ In c file ->
    match rfind (dir ++ sep :: file) c 0 with Some i => i | None => 0 end <= zlen dir).
  { intros c C N. rewrite rfind_app_none by (intros [Q|Q]; [congruence|auto]).
    pose proof (zlen_nonneg dir).
    destruct (rfind dir c 0) eqn:E; [apply rfind_bound in E; lia|lia]. }
  pose proof (zlen_nonneg dir).
  destruct S as [-> | ->].
  - specialize (B 92 ltac:(lia) N2). rewrite (rfind_last dir 47 file 0 N1) in *.
    rewrite Z.max_l by lia. replace (0 + zlen dir) with (zlen dir) by lia. apply zfirstn_app.
  - specialize (B 47 ltac:(lia) N1). rewrite (rfind_last dir 92 file 0 N2) in *.
    rewrite Z.max_r by lia. replace (0 + zlen dir) with (zlen dir) by lia. apply zfirstn_app.
Qed.
Lemma base_path_none : forall file, ~ In 47 file -> ~ In 92 file -> base_path file = [].
Proof.
  intros file N1 N2. unfold base_path. rewrite !rfind_none by auto. now apply zfirstn_0.
Qed.
