(** Proofs about the instruction encoding. *)
From Coq Require Import ZArith List Bool Lia String ZifyBool.
From Verif Require Import Base BaseFacts Instr InstrSpec.
Import ListNotations.
Open Scope Z_scope.

Lemma le32_len : forall z, zlen (le32 z) = 4.
Proof. reflexivity. Qed.

Lemma of_le32_split : forall u, 0 <= u < 4294967296 ->
  u mod 256 + 256 * ((u / 256) mod 256) + 65536 * ((u / 65536) mod 256)
  + 16777216 * ((u / 16777216) mod 256) = u.
Proof.
  intros u H.
  assert (E1 : u / 65536 = u / 256 / 256) by (rewrite Z.div_div by lia; reflexivity).
  assert (E2 : u / 16777216 = u / 256 / 256 / 256) by (rewrite !Z.div_div by lia; reflexivity).
  rewrite E1, E2.
  pose proof (Z.div_mod u 256 ltac:(lia)).
  pose proof (Z.div_mod (u / 256) 256 ltac:(lia)).
  pose proof (Z.div_mod (u / 256 / 256) 256 ltac:(lia)).
  assert (u / 256 / 256 / 256 < 256).
  { rewrite !Z.div_div by lia. apply Z.div_lt_upper_bound; lia. }
  assert (0 <= u / 256 / 256 / 256).
  { rewrite !Z.div_div by lia. apply Z.div_pos; lia. }
  rewrite (Z.mod_small (u / 256 / 256 / 256)) by lia. lia.
Qed.

Lemma rd32_le32 : forall z rest, rd32 (le32 z ++ rest) = Some (to_i32 z, rest).
Proof.
  intros z rest. unfold le32. cbn [app rd32]. unfold of_le32. do 2 f_equal.
  rewrite of_le32_split by (unfold to_u32; apply Z.mod_pos_bound; lia).
  apply to_i32_u32.
Qed.

Lemma of_opcode_opcode : forall i, of_opcode (opcode i) = Some i.
Proof. destruct i; reflexivity. Qed.

Lemma of_opcode_some : forall b i, of_opcode b = Some i -> b = opcode i.
Proof.
  intros b i H.
  assert (R : 0 <= b < 40) by (apply znth_some in H; exact H).
  unfold of_opcode in H. rewrite znth_nth_error in H by lia.
  assert (E : exists n, b = Z.of_nat n /\ (n < 40)%nat) by (exists (Z.to_nat b); lia).
  destruct E as (n & -> & L). rewrite Nat2Z.id in H.
  do 40 (destruct n as [|n]; [injection H as <-; reflexivity|]). lia.
Qed.

Lemma all_instr_complete : forall i, In i all_instr.
Proof. destruct i; simpl; tauto. Qed.

(** Which emit overload accepts which instruction. *)
Lemma emit_ok_iff : forall x,
  (exists b, emit x = Ok b) <->
  match x with I0 i => operands i = 0 | I1 i _ => operands i = 1 | I2 i _ _ => operands i = 2 end.
Proof.
  intros [i|i o|i o1 o2]; split.
  all: try (intros [b H]; destruct i; try discriminate H; reflexivity).
  all: intros H; destruct i; try discriminate H; eexists; reflexivity.
Qed.

Lemma emit_len : forall x b, emit x = Ok b -> zlen b = 1 + 4 * operands (ins_op x).
Proof.
  intros [i|i o|i o1 o2] b H; destruct i; try discriminate H; injection H as <-; reflexivity.
Qed.

Lemma mnemonic_name : forall i, mnemonic (opcode i) = bs (name i).
Proof. destruct i; reflexivity. Qed.

Lemma disasm_emit : forall x b rest,
  ins_wf x -> emit x = Ok b -> disasm (b ++ rest) = Ok (text x, zlen b).
Proof.
  intros [i|i o|i o1 o2] b rest W H.
  - destruct i; try discriminate H; injection H as <-; reflexivity.
  - destruct W as [_ W].
    assert (Hb : b = opcode i :: le32 o) by (destruct i; try discriminate H; injection H as <-; reflexivity).
    subst b. unfold text. rewrite <- mnemonic_name.
    cbn [app]. unfold disasm. rewrite of_opcode_opcode, rd32_le32, (to_i32_id o W).
    destruct i; try discriminate H; reflexivity.
  - destruct W as (_ & W1 & W2).
    assert (Hb : b = opcode i :: le32 o1 ++ le32 o2) by (destruct i; try discriminate H; injection H as <-; reflexivity).
    subst b. unfold text. rewrite <- mnemonic_name.
    cbn [app]. rewrite <- app_assoc. unfold disasm.
    rewrite of_opcode_opcode, rd32_le32, rd32_le32, (to_i32_id o1 W1), (to_i32_id o2 W2).
    destruct i; try discriminate H; reflexivity.
Qed.

(** A whole listing. *)
Fixpoint emit_all (l : list ins) : res bytes :=
  match l with
  | [] => Ok []
  | x :: t => b <- emit x ;; r <- emit_all t ;; Ok (b ++ r)
  end.

Lemma dump_emit : forall l b fuel,
  Forall ins_wf l -> emit_all l = Ok b -> (List.length b <= fuel)%nat ->
  dump fuel b = Ok (map text l).
Proof.
  induction l as [|x l IH]; intros b fuel W H F; cbn [emit_all] in H.
  - injection H as <-. destruct fuel; reflexivity.
  - inversion W as [|? ? Wx Wl]; subst.
    apply bind_ok in H as (bx & Hx & H). apply bind_ok in H as (bl & Hl & H).
    injection H as <-.
    pose proof (emit_len x bx Hx) as L.
    assert (P : 1 <= zlen bx) by (destruct (ins_op x); rewrite L; simpl; lia).
    destruct bx as [|c bx]; [rewrite zlen_nil in P; lia|].
    destruct fuel as [|fuel]; [simpl in F; lia|].
    cbn [app dump]. change (c :: bx ++ bl) with ((c :: bx) ++ bl).
    rewrite (disasm_emit x _ bl Wx Hx). cbn [bind].
    unfold assert_. destruct (0 <? zlen (c :: bx)) eqn:E; [|lia]. cbn [bind].
    rewrite zskipn_app, (IH bl fuel Wl Hl).
    + reflexivity.
    + cbn [app List.length] in F. rewrite app_length in F. lia.
Qed.

(** The text determines the instruction: decimal numerals are injective and
    contain no blank, names are distinct. *)
Definition dval (s : bytes) : Z := fold_left (fun a c => a * 10 + (c - 48)) s 0.

Lemma dec_digits_val : forall f n, 0 <= n -> n < 2 ^ Z.of_nat f ->
  dval (dec_digits f n []) = n /\
  Forall (fun c => 48 <= c <= 57) (dec_digits f n []) /\
  (f = O \/ dec_digits f n [] <> []).
Proof.
  induction f as [|f IH]; intros n H0 H.
  - simpl in H. cbn. repeat split; auto. unfold dval; simpl. lia.
  - cbn [dec_digits].
    pose proof (Z.mod_pos_bound n 10 ltac:(lia)).
    pose proof (Z.div_mod n 10 ltac:(lia)).
    destruct (n / 10 =? 0) eqn:E.
    + repeat split.
      * unfold dval; cbn [fold_left]. lia.
      * constructor; auto. lia.
      * right. discriminate.
    + rewrite dec_digits_app.
      assert (n / 10 < 2 ^ Z.of_nat f).
      { replace (Z.of_nat (S f)) with (Z.of_nat f + 1) in H by lia.
        rewrite Z.pow_add_r in H by lia. change (2 ^ 1) with 2 in H. lia. }
      assert (0 <= n / 10) by (apply Z.div_pos; lia).
      destruct (IH (n / 10)) as (V & D & _); auto.
      repeat split.
      * unfold dval in *. rewrite fold_left_app. rewrite V. cbn [fold_left]. lia.
      * apply Forall_app; split; auto. constructor; auto. lia.
      * right. intros C. apply app_eq_nil in C as [_ C]. discriminate.
Qed.

Lemma dec_nonneg_spec : forall n, 0 <= n ->
  dval (dec_nonneg n) = n /\
  Forall (fun c => 48 <= c <= 57) (dec_nonneg n) /\ dec_nonneg n <> [].
Proof.
  intros n H. unfold dec_nonneg.
  destruct (dec_digits_val (S (Z.to_nat (Z.log2 n))) n H) as (V & D & N).
  - destruct (Z.eq_dec n 0) as [->|NZ]; [reflexivity|].
    pose proof (Z.log2_nonneg n).
    replace (Z.of_nat (S (Z.to_nat (Z.log2 n)))) with (Z.succ (Z.log2 n)) by lia.
    apply Z.log2_spec. lia.
  - destruct N as [N|N]; [discriminate|auto].
Qed.

Lemma dec_chars : forall z, Forall (fun c => c = 45 \/ 48 <= c <= 57) (dec z).
Proof.
  intros z. unfold dec. destruct (z <? 0) eqn:E.
  - constructor; auto. destruct (dec_nonneg_spec (- z)) as (_ & D & _); [lia|].
    eapply Forall_impl; [|exact D]. simpl; auto.
  - destruct (dec_nonneg_spec z) as (_ & D & _); [lia|].
    eapply Forall_impl; [|exact D]. simpl; auto.
Qed.

Lemma dec_inj : forall a b, dec a = dec b -> a = b.
Proof.
  intros a b. unfold dec.
  destruct (a <? 0) eqn:Ea; destruct (b <? 0) eqn:Eb; intros H.
  - injection H as H.
    destruct (dec_nonneg_spec (- a)) as (Va & _); [lia|].
    destruct (dec_nonneg_spec (- b)) as (Vb & _); [lia|]. rewrite H in Va. lia.
  - destruct (dec_nonneg_spec b) as (_ & D & _); [lia|]. rewrite <- H in D.
    inversion D; lia.
  - destruct (dec_nonneg_spec a) as (_ & D & _); [lia|]. rewrite H in D.
    inversion D; lia.
  - destruct (dec_nonneg_spec a) as (Va & _); [lia|].
    destruct (dec_nonneg_spec b) as (Vb & _); [lia|]. rewrite H in Va. lia.
Qed.

(** Splitting at the first blank. *)
Fixpoint upto_blank (s : bytes) : bytes * bytes :=
  match s with
  | [] => ([], [])
  | c :: r => if c =? 32 then ([], r) else let (a, b) := upto_blank r in (c :: a, b)
  end.
Lemma upto_blank_app : forall a b, Forall (fun c => c <> 32) a ->
  upto_blank (a ++ 32 :: b) = (a, b).
Proof.
  induction a as [|c a IH]; intros b H; cbn.
  - reflexivity.
  - inversion H; subst. destruct (c =? 32) eqn:E; [lia|]. now rewrite IH.
Qed.
Lemma upto_blank_none : forall a, Forall (fun c => c <> 32) a -> upto_blank a = (a, []).
Proof.
  induction a as [|c a IH]; intros H; cbn; auto.
  inversion H; subst. destruct (c =? 32) eqn:E; [lia|]. now rewrite IH.
Qed.
Lemma dec_no_blank : forall z, Forall (fun c => c <> 32) (dec z).
Proof. intros; eapply Forall_impl; [|apply dec_chars]; simpl; lia. Qed.
Lemma name_no_blank : forall i, Forall (fun c => c <> 32) (bs (name i)).
Proof. destruct i; cbn; repeat (constructor; [lia|]); constructor. Qed.
Lemma name_inj : forall i j, bs (name i) = bs (name j) -> i = j.
Proof. intros i j; destruct i; destruct j; intros H; try reflexivity; discriminate H. Qed.
Lemma dec_nonnil : forall z, dec z <> [].
Proof.
  intros z. unfold dec. destruct (z <? 0) eqn:E; [discriminate|].
  destruct (dec_nonneg_spec z) as (_ & _ & N); [lia|exact N].
Qed.

Lemma text_inj : forall x y, text x = text y -> x = y.
Proof.
  assert (S0 : forall i, upto_blank (text (I0 i)) = (bs (name i), [])).
  { intros; apply upto_blank_none, name_no_blank. }
  assert (S1 : forall i o, upto_blank (text (I1 i o)) = (bs (name i), dec o)).
  { intros; apply (upto_blank_app _ (dec o)), name_no_blank. }
  assert (S2 : forall i o1 o2, upto_blank (text (I2 i o1 o2)) = (bs (name i), dec o1 ++ 32 :: dec o2)).
  { intros; apply (upto_blank_app _ (dec o1 ++ 32 :: dec o2)), name_no_blank. }
  assert (NB : forall o a b, dec o = a ++ 32 :: b -> False).
  { intros o a b E. pose proof (dec_no_blank o) as N. rewrite E in N.
    apply Forall_app in N as [_ N]. inversion N; tauto. }
  intros [i|i o|i o1 o2] [j|j p|j p1 p2] H; apply (f_equal upto_blank) in H;
    rewrite ?S0, ?S1, ?S2 in H; pose proof (f_equal fst H) as HN;
    pose proof (f_equal snd H) as HO; cbn [fst snd] in HN, HO; clear H;
    apply name_inj in HN; subst; auto.
  - symmetry in HO; apply dec_nonnil in HO; tauto.
  - symmetry in HO; apply app_eq_nil in HO as [HO _]; apply dec_nonnil in HO; tauto.
  - apply dec_nonnil in HO; tauto.
  - now apply dec_inj in HO as ->.
  - exfalso; eapply NB; eauto.
  - apply app_eq_nil in HO as [HO _]; apply dec_nonnil in HO; tauto.
  - exfalso; symmetry in HO; eapply NB; eauto.
  - apply (f_equal upto_blank) in HO.
    rewrite !upto_blank_app in HO by apply dec_no_blank.
    injection HO as A B. apply dec_inj in A, B. now subst.
Qed.

(** Operand patching. *)
Lemma apply_fixup_ok : forall code i v,
  0 <= i -> i + 4 <= zlen code ->
  exists code', apply_fixup code i v = Ok code' /\
    zlen code' = zlen code /\
    rd32 (zskipn i code') = Some (to_i32 v, zskipn (i + 4) code) /\
    (forall j, j < i \/ i + 4 <= j -> znth code' j = znth code j).
Proof.
  intros code i v Hi Hl. unfold apply_fixup.
  destruct ((0 <=? i) && (i + 4 <=? zlen code)) eqn:E; [|lia].
  eexists; split; [reflexivity|].
  assert (LF : zlen (zfirstn i code) = i) by (apply zlen_zfirstn; lia).
  split; [|split].
  - rewrite !zlen_app, LF, le32_len, zlen_zskipn; lia.
  - rewrite zskipn_app2 by lia. rewrite LF, zskipn_0 by lia. apply rd32_le32.
  - intros j [J|J].
    + rewrite znth_app1 by lia. apply znth_zfirstn; lia.
    + rewrite znth_app2 by lia. rewrite LF.
      rewrite znth_app2 by (rewrite le32_len; lia). rewrite le32_len.
      rewrite znth_zskipn by lia. f_equal; lia.
Qed.

Lemma apply_fixup_oob : forall code i v,
  ~ (0 <= i /\ i + 4 <= zlen code) -> apply_fixup code i v = Stuck SOob.
Proof.
  intros code i v H. unfold apply_fixup.
  destruct ((0 <=? i) && (i + 4 <=? zlen code)) eqn:E; auto. lia.
Qed.
