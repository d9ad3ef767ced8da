(** Lemmas about the vocabulary of [Base]. *)
From Coq Require Import ZArith List Bool Lia String Ascii ZifyBool.
From Verif Require Import Base.
Import ListNotations.
Open Scope Z_scope.

Lemma bind_ok : forall {A B} (m : res A) (k : A -> res B) b,
  bind m k = Ok b -> exists a, m = Ok a /\ k a = Ok b.
Proof. intros A B m k b H; destruct m; simpl in H; try discriminate; eauto. Qed.

Section ZL.
  Context {A : Type}.
  Implicit Types l : list A.

  Lemma zlen_nil : zlen (@nil A) = 0. Proof. reflexivity. Qed.
  Lemma zlen_cons : forall (x : A) l, zlen (x :: l) = zlen l + 1.
  Proof. intros; unfold zlen; simpl; lia. Qed.
  Lemma zlen_nonneg : forall l, 0 <= zlen l.
  Proof. intros; unfold zlen; lia. Qed.
  Lemma zlen_app : forall l l', zlen (l ++ l') = zlen l + zlen l'.
  Proof. intros; unfold zlen; rewrite app_length; lia. Qed.
  Lemma zlen_0_nil : forall l, zlen l = 0 -> l = [].
  Proof. destruct l; auto. rewrite zlen_cons. pose proof (zlen_nonneg l); lia. Qed.

  Lemma znth_some : forall l i x, znth l i = Some x -> 0 <= i < zlen l.
  Proof.
    induction l as [|y l IH]; simpl; intros i x H; [discriminate|].
    rewrite zlen_cons. pose proof (zlen_nonneg l).
    destruct (i =? 0) eqn:E; [lia|]. apply IH in H. lia.
  Qed.
  Lemma znth_in : forall l i, 0 <= i < zlen l -> exists x, znth l i = Some x.
  Proof.
    induction l as [|y l IH]; intros i H.
    - rewrite zlen_nil in H; lia.
    - rewrite zlen_cons in H. simpl. destruct (i =? 0) eqn:E; eauto.
      apply IH; lia.
  Qed.
  Lemma znth_none : forall l i, znth l i = None <-> ~ (0 <= i < zlen l).
  Proof.
    intros l i; split; intros H.
    - intros C. destruct (znth_in l i C) as [x E]. congruence.
    - destruct (znth l i) eqn:E; auto. apply znth_some in E. tauto.
  Qed.
  Lemma znth_neg : forall l i, i < 0 -> znth l i = None.
  Proof. intros; apply znth_none; lia. Qed.
  Lemma znth_nth_error : forall l i, 0 <= i -> znth l i = nth_error l (Z.to_nat i).
  Proof.
    induction l as [|y l IH]; intros i H; simpl.
    - destruct (Z.to_nat i); reflexivity.
    - destruct (i =? 0) eqn:E.
      + replace i with 0 by lia. reflexivity.
      + replace (Z.to_nat i) with (S (Z.to_nat (i - 1))) by lia. simpl.
        apply IH; lia.
  Qed.
  Lemma znth_In : forall l i x, znth l i = Some x -> In x l.
  Proof.
    induction l as [|y l IH]; simpl; intros i x H; [discriminate|].
    destruct (i =? 0); [injection H as ->; auto|eauto].
  Qed.
  Lemma In_znth : forall l x, In x l -> exists i, znth l i = Some x.
  Proof.
    intros l x H. apply In_nth_error in H. destruct H as [n H].
    exists (Z.of_nat n). rewrite znth_nth_error by lia. now rewrite Nat2Z.id.
  Qed.
  Lemma znth_app1 : forall l l' i, i < zlen l -> znth (l ++ l') i = znth l i.
  Proof.
    induction l as [|y l IH]; intros l' i H; simpl.
    - rewrite zlen_nil in H. apply znth_neg; lia.
    - rewrite zlen_cons in H. destruct (i =? 0); auto. apply IH; lia.
  Qed.
  Lemma znth_app2 : forall l l' i, zlen l <= i -> znth (l ++ l') i = znth l' (i - zlen l).
  Proof.
    induction l as [|y l IH]; intros l' i H; simpl.
    - rewrite zlen_nil. f_equal; lia.
    - rewrite zlen_cons in *. pose proof (zlen_nonneg l).
      destruct (i =? 0) eqn:E; [lia|]. rewrite IH by lia. f_equal; lia.
  Qed.

  Lemma zlen_zupd : forall l i v, zlen (zupd l i v) = zlen l.
  Proof.
    induction l as [|y l IH]; intros; simpl; auto.
    destruct (i =? 0); rewrite !zlen_cons; auto. now rewrite IH.
  Qed.
  Lemma znth_zupd_same : forall l i v, 0 <= i < zlen l -> znth (zupd l i v) i = Some v.
  Proof.
    induction l as [|y l IH]; intros i v H.
    - rewrite zlen_nil in H; lia.
    - rewrite zlen_cons in H. simpl. destruct (i =? 0) eqn:E; simpl; rewrite E; auto.
      apply IH; lia.
  Qed.
  Lemma znth_zupd_other : forall l i j v, i <> j -> znth (zupd l i v) j = znth l j.
  Proof.
    induction l as [|y l IH]; intros i j v H; simpl; auto.
    destruct (i =? 0) eqn:E; simpl; destruct (j =? 0) eqn:E2; auto; try lia.
    apply IH; lia.
  Qed.
  Lemma zupd_out : forall l i v, ~ (0 <= i < zlen l) -> zupd l i v = l.
  Proof.
    induction l as [|y l IH]; intros i v H; simpl; auto.
    rewrite zlen_cons in H. pose proof (zlen_nonneg l).
    destruct (i =? 0) eqn:E; [lia|]. rewrite IH; auto; lia.
  Qed.
  Lemma zupd_app2 : forall l l' i v, zlen l <= i -> zupd (l ++ l') i v = l ++ zupd l' (i - zlen l) v.
  Proof.
    induction l as [|y l IH]; intros l' i v H; simpl.
    - rewrite zlen_nil. f_equal; lia.
    - rewrite zlen_cons in *. pose proof (zlen_nonneg l).
      destruct (i =? 0) eqn:E; [lia|]. rewrite IH by lia. do 3 f_equal; lia.
  Qed.
  Lemma zupd_app1 : forall l l' i v, i < zlen l -> zupd (l ++ l') i v = zupd l i v ++ l'.
  Proof.
    induction l as [|y l IH]; intros l' i v H; simpl.
    - rewrite zlen_nil in H. apply zupd_out. lia.
    - rewrite zlen_cons in *.
      destruct (i =? 0) eqn:E; auto. simpl. rewrite IH by lia. reflexivity.
  Qed.
  Lemma znth_ext : forall l l', zlen l = zlen l' ->
    (forall i, 0 <= i < zlen l -> znth l i = znth l' i) -> l = l'.
  Proof.
    induction l as [|y l IH]; intros [|z l'] HL H; auto.
    - rewrite zlen_cons, zlen_nil in HL. pose proof (zlen_nonneg l'); lia.
    - rewrite zlen_cons, zlen_nil in HL. pose proof (zlen_nonneg l); lia.
    - rewrite !zlen_cons in *. pose proof (zlen_nonneg l).
      assert (E := H 0 ltac:(lia)). simpl in E. injection E as ->. f_equal.
      apply IH; [lia|]. intros i Hi. specialize (H (i + 1) ltac:(lia)). simpl in H.
      destruct (i + 1 =? 0) eqn:E; [lia|]. replace (i + 1 - 1) with i in H by lia. exact H.
  Qed.

  Lemma zfirstn_0 : forall l n, n <= 0 -> zfirstn n l = [].
  Proof. destruct l; simpl; auto. intros n H. destruct (n <=? 0) eqn:E; auto; lia. Qed.
  Lemma zskipn_0 : forall l n, n <= 0 -> zskipn n l = l.
  Proof. destruct l; simpl; auto. intros n H. destruct (n <=? 0) eqn:E; auto; lia. Qed.
  Lemma zfirstn_zskipn : forall l n, zfirstn n l ++ zskipn n l = l.
  Proof.
    induction l as [|y l IH]; intros n; simpl; auto.
    destruct (n <=? 0); simpl; auto. now rewrite IH.
  Qed.
  Lemma zlen_zfirstn : forall l n, 0 <= n <= zlen l -> zlen (zfirstn n l) = n.
  Proof.
    induction l as [|y l IH]; intros n H; simpl.
    - rewrite zlen_nil in *. lia.
    - rewrite zlen_cons in H. destruct (n <=? 0) eqn:E; [rewrite zlen_nil; lia|].
      rewrite zlen_cons, IH; lia.
  Qed.
  Lemma zlen_zskipn : forall l n, 0 <= n <= zlen l -> zlen (zskipn n l) = zlen l - n.
  Proof.
    intros l n H. pose proof (zfirstn_zskipn l n) as E.
    apply (f_equal (@zlen A)) in E. rewrite zlen_app, zlen_zfirstn in E by lia. lia.
  Qed.
  Lemma zfirstn_app : forall l l', zfirstn (zlen l) (l ++ l') = l.
  Proof.
    induction l as [|y l IH]; intros l'.
    - apply (zfirstn_0 l'). rewrite zlen_nil; lia.
    - cbn [zfirstn app]. rewrite zlen_cons. pose proof (zlen_nonneg l).
      destruct (zlen l + 1 <=? 0) eqn:E; [lia|].
      replace (zlen l + 1 - 1) with (zlen l) by lia. now rewrite IH.
  Qed.
  Lemma zskipn_app : forall l l', zskipn (zlen l) (l ++ l') = l'.
  Proof.
    induction l as [|y l IH]; intros l'.
    - apply (zskipn_0 l'). rewrite zlen_nil; lia.
    - cbn [zskipn app]. rewrite zlen_cons. pose proof (zlen_nonneg l).
      destruct (zlen l + 1 <=? 0) eqn:E; [lia|].
      replace (zlen l + 1 - 1) with (zlen l) by lia. apply IH.
  Qed.
  Lemma znth_zskipn : forall l n i, 0 <= n -> 0 <= i -> znth (zskipn n l) i = znth l (n + i).
  Proof.
    induction l as [|y l IH]; intros n i Hn Hi; simpl; auto.
    destruct (n <=? 0) eqn:E.
    - simpl. replace (n + i) with i by lia. reflexivity.
    - destruct (n + i =? 0) eqn:E2; [lia|]. rewrite IH by lia. f_equal; lia.
  Qed.
  Lemma znth_zfirstn : forall l n i, i < n -> znth (zfirstn n l) i = znth l i.
  Proof.
    induction l as [|y l IH]; intros n i H; simpl; auto.
    destruct (n <=? 0) eqn:E.
    - simpl. destruct (i =? 0) eqn:E2; [lia|]. symmetry; apply znth_neg; lia.
    - simpl. destruct (i =? 0); auto. apply IH; lia.
  Qed.
  Lemma zskipn_zskipn : forall l a b, 0 <= a -> 0 <= b -> zskipn a (zskipn b l) = zskipn (a + b) l.
  Proof.
    induction l as [|y l IH]; intros a b Ha Hb; simpl; auto.
    destruct (b <=? 0) eqn:E; simpl.
    - destruct (a <=? 0) eqn:E2; destruct (a + b <=? 0) eqn:E3; auto; try lia.
      f_equal; lia.
    - destruct (a + b <=? 0) eqn:E3; [lia|]. rewrite IH by lia. f_equal; lia.
  Qed.
  Lemma zskipn_all : forall l n, zlen l <= n -> zskipn n l = [].
  Proof.
    induction l as [|y l IH]; intros n H; simpl; auto.
    rewrite zlen_cons in H. pose proof (zlen_nonneg l).
    destruct (n <=? 0) eqn:E; [lia|]. apply IH; lia.
  Qed.
  Lemma zfirstn_all : forall l n, zlen l <= n -> zfirstn n l = l.
  Proof.
    intros l n H. pose proof (zfirstn_zskipn l n) as E. rewrite zskipn_all in E by auto.
    now rewrite app_nil_r in E.
  Qed.
  Lemma zlen_zrepeat : forall (v : A) n, zlen (zrepeat v n) = Z.max 0 n.
  Proof. intros; unfold zlen, zrepeat. rewrite repeat_length. lia. Qed.
  Lemma znth_zrepeat : forall (v : A) n i, 0 <= i < n -> znth (zrepeat v n) i = Some v.
  Proof.
    intros v n i H. rewrite znth_nth_error by lia. unfold zrepeat.
    apply nth_error_repeat. lia.
  Qed.
  Lemma zskipn_app2 : forall l l' n, zlen l <= n -> zskipn n (l ++ l') = zskipn (n - zlen l) l'.
  Proof.
    intros l l' n H. pose proof (zlen_nonneg l).
    replace n with ((n - zlen l) + zlen l) at 1 by lia.
    rewrite <- zskipn_zskipn by lia. now rewrite zskipn_app.
  Qed.
  Lemma zskipn_app1 : forall l l' n, n <= zlen l -> zskipn n (l ++ l') = zskipn n l ++ l'.
  Proof.
    induction l as [|y l IH]; intros l' n H; simpl.
    - rewrite zlen_nil in H. now apply zskipn_0.
    - rewrite zlen_cons in H. destruct (n <=? 0); auto. apply IH; lia.
  Qed.
  Lemma zfirstn_app1 : forall l l' n, n <= zlen l -> zfirstn n (l ++ l') = zfirstn n l.
  Proof.
    induction l as [|y l IH]; intros l' n H; simpl.
    - rewrite zlen_nil in H. now apply zfirstn_0.
    - rewrite zlen_cons in H. destruct (n <=? 0); auto. f_equal. apply IH; lia.
  Qed.
  Lemma zlen_rev : forall l, zlen (rev l) = zlen l.
  Proof. intros; unfold zlen; now rewrite rev_length. Qed.
End ZL.

Lemma zlen_map : forall {A B} (f : A -> B) l, zlen (map f l) = zlen l.
Proof. intros; unfold zlen; now rewrite map_length. Qed.
Lemma znth_map : forall {A B} (f : A -> B) l i, znth (map f l) i = option_map f (znth l i).
Proof.
  induction l as [|x l IH]; intros i; simpl; auto. destruct (i =? 0); auto.
Qed.

Lemma bytes_eqb_eq : forall a b, bytes_eqb a b = true <-> a = b.
Proof.
  induction a as [|x a IH]; intros [|y b]; simpl; split; intros H; try discriminate; auto.
  - apply andb_true_iff in H as [H1 H2]. apply IH in H2. f_equal; auto; lia.
  - injection H as -> ->. rewrite Z.eqb_refl. simpl. now apply IH.
Qed.
Lemma bytes_eqb_refl : forall a, bytes_eqb a a = true.
Proof. intros; now apply bytes_eqb_eq. Qed.
Lemma bytes_eqb_neq : forall a b, bytes_eqb a b = false <-> a <> b.
Proof.
  intros a b. destruct (bytes_eqb a b) eqn:E; split; intros H; try discriminate; try congruence.
  - apply bytes_eqb_eq in E; tauto.
  - intros C. apply bytes_eqb_eq in C. congruence.
Qed.

(** 32-bit representation *)
Lemma to_i32_id : forall z, in_i32 z = true -> to_i32 z = z.
Proof.
  unfold in_i32, to_i32, i32_min, i32_max. intros z H.
  destruct (Z_lt_ge_dec z 0) as [N|P].
  - replace (z mod 4294967296) with (z + 4294967296).
    + destruct (z + 4294967296 <? 2147483648) eqn:E; lia.
    + symmetry. rewrite <- (Z_mod_plus_full z 1). apply Z.mod_small. lia.
  - rewrite Z.mod_small by lia. destruct (z <? 2147483648) eqn:E; lia.
Qed.
Lemma to_i32_range : forall z, in_i32 (to_i32 z) = true.
Proof.
  intros z. unfold in_i32, to_i32, i32_min, i32_max.
  pose proof (Z.mod_pos_bound z 4294967296 ltac:(lia)).
  destruct (z mod 4294967296 <? 2147483648) eqn:E; lia.
Qed.
Lemma to_i32_u32 : forall z, to_i32 (to_u32 z) = to_i32 z.
Proof. intros; unfold to_i32, to_u32. now rewrite Z.mod_mod by lia. Qed.

Lemma in_i32_iff : forall z, in_i32 z = true <-> -2147483648 <= z <= 2147483647.
Proof. unfold in_i32, i32_min, i32_max; intros; lia. Qed.

(** Decimal digits *)
Lemma dec_digits_app : forall f n acc,
  dec_digits f n acc = dec_digits f n [] ++ acc.
Proof.
  induction f as [|f IH]; intros n acc; cbn [dec_digits]; auto.
  destruct (n / 10 =? 0); auto.
  rewrite IH, (IH _ [_]), <- app_assoc. reflexivity.
Qed.
