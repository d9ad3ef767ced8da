(** Proof support: whatever a program does, its global variables stay the same
    ones in the same order, also when it ends with an error. *)
From Coq Require Import ZArith List Bool Lia.
From Verif Require Import Base F32 Program VM AbsHeap Ast Sema SrcSem SrcFacts.
Import ListNotations.
Open Scope Z_scope.

Definition keys (st : sst) : list nat := map fst (s_glob st).
Definition keyed {A} (ks : list nat) (get : A -> sst) (o : outcome A) : Prop :=
  match o with
  | Done a => keys (get a) = ks
  | Error _ st => keys st = ks
  | _ => True
  end.
Lemma keyed_bind {A B} ks (g1 : A -> sst) (g2 : B -> sst) m k :
  keyed ks g1 m -> (forall a, keys (g1 a) = ks -> keyed ks g2 (k a)) -> keyed ks g2 (obind m k).
Proof. destruct m; cbn; auto. Qed.
Lemma keyed_pure {A B} ks (g2 : B -> sst) (m : outcome A) k :
  (forall e st, m <> Error e st) -> (forall a, keyed ks g2 (k a)) -> keyed ks g2 (obind m k).
Proof. destruct m; cbn; auto. intros H. destruct (H e st eq_refl). Qed.
Lemma update_keys {A} (l : list (nat * A)) i v : map fst (update l i v) = map fst l.
Proof. induction l as [|[j x] l IH]; cbn [update map]; [reflexivity|]. destruct (Nat.eqb j i); cbn [map fst]; [reflexivity|now rewrite IH]. Qed.
Lemma read_pure d r st e st' : read d r st <> Error e st'.
Proof. unfold read. destruct (vd_const d); [discriminate|]. destruct (match vd_kind d with KLocal => _ | KArg => _ | KGlobal => _ end); discriminate. Qed.
Lemma look_pure st v e st' : look st v <> Error e st'.
Proof. unfold look. destruct (abs_view (s_heap st) v); discriminate. Qed.
Lemma truth_pure v st e st' : truth v st <> Error e st'.
Proof. unfold truth. pose proof (look_pure st v) as H. destruct (look st v); cbn; try discriminate. intros _. exact (H _ _ eq_refl). Qed.
Lemma write_keyed ks d v r st : keys st = ks -> keyed ks snd (write d v r st).
Proof.
  intros K. unfold write. destruct (vd_const d); [exact I|]. destruct (vd_kind d); destruct (lookup _ _); cbn; auto.
  unfold keys, with_glob. cbn [s_glob]. now rewrite update_keys.
Qed.
Lemma answer_keyed ks r st : keys st = ks -> keyed ks snd (answer r st).
Proof. intros K. unfold answer. destruct r as [[c|e]|e l|x]; cbn; auto. Qed.
Lemma apply2_keyed ks o a b st : keys st = ks -> keyed ks snd (apply2 o a b st).
Proof. intros K. unfold apply2. apply keyed_pure; [apply look_pure|]. intros w. apply keyed_pure; [apply look_pure|]. intros w'. now apply answer_keyed. Qed.
Lemma apply1_keyed ks o a st : keys st = ks -> keyed ks snd (apply1 o a st).
Proof. intros K. unfold apply1. apply keyed_pure; [apply look_pure|]. intros w. now apply answer_keyed. Qed.
Lemma element_keyed ks a i st : keys st = ks -> keyed ks snd (element a i st).
Proof.
  intros K. unfold element. apply keyed_pure; [apply look_pure|]. intros w.
  destruct w as [|c|l]; [exact K| |]; (destruct i as [|[]|]; try (apply keyed_pure; [apply look_pure|]; intros; exact K)).
  - destruct c; try exact K. destruct (znth _ _); exact K.
  - destruct (znth _ _); exact K.
Qed.
Lemma set_element_keyed ks a i v st : keys st = ks -> keyed ks (fun s => s) (set_element a i v st).
Proof.
  intros K. unfold set_element. apply keyed_pure; [apply look_pure|]. intros w.
  destruct a; try exact K. destruct w; try exact K.
  destruct i as [|[]|]; try (apply keyed_pure; [apply look_pure|]; intros; exact K).
  destruct (_ && _); [|exact K]. apply keyed_pure; [apply look_pure|]. intros; exact K.
Qed.
Lemma member_keyed ks a x st : keys st = ks -> keyed ks snd (member a x st).
Proof.
  intros K. unfold member. apply keyed_pure; [apply look_pure|]. intros w. destruct w; try exact K. destruct (bytes_eqb _ _); exact K.
Qed.

Section Keys.
  Variable items : list ritem.
  Variable faddr : nat -> Z.
  Variable sidx : bytes -> Z.
  Variable sys : Z -> list aval -> sst -> outcome (aval * sst).
  Hypothesis Sys : forall i vs st, keyed (keys st) snd (sys i vs st).

  Ltac kd := match goal with
    | |- keyed _ _ (obind (read _ _ _) _) => apply keyed_pure; [apply read_pure|intros ?]
    | |- keyed _ _ (obind (look _ _) _) => apply keyed_pure; [apply look_pure|intros ?]
    | |- keyed _ _ (obind (truth _ _) _) => apply keyed_pure; [apply truth_pure|intros ?]
    end.
  Lemma keys_kept n : forall ks st, keys st = ks ->
    (forall r e, keyed ks snd (run_expr items faddr sidx sys n r e st)) /\
    (forall r es, keyed ks snd (run_exprs items faddr sidx sys n r es st)) /\
    (forall x vs, keyed ks snd (run_call items faddr sidx sys n x vs st)) /\
    (forall r s, keyed ks snd (run_stmt items faddr sidx sys n r s st)) /\
    (forall r b, keyed ks snd (run_stmts items faddr sidx sys n r b st)) /\
    (forall r o, keyed ks snd (run_block items faddr sidx sys n r o st)) /\
    (forall r d limit body, keyed ks snd (run_for items faddr sidx sys n r d limit body st)).
  Proof.
    induction n as [|n IH]; intros ks st K; [repeat split|].
    assert (SK : forall i vs st, keys st = ks -> keyed ks snd (sys i vs st)) by (intros i vs st1 <-; apply Sys).
    assert (IE : forall st r e, keys st = ks -> keyed ks snd (run_expr items faddr sidx sys n r e st)) by (intros st1 r e K1; now apply IH).
    assert (IEs : forall st r es, keys st = ks -> keyed ks snd (run_exprs items faddr sidx sys n r es st)) by (intros st1 r es K1; now apply IH).
    assert (IC : forall st x vs, keys st = ks -> keyed ks snd (run_call items faddr sidx sys n x vs st)) by (intros st1 x vs K1; now apply IH).
    assert (IS : forall st r s, keys st = ks -> keyed ks snd (run_stmt items faddr sidx sys n r s st)) by (intros st1 r s K1; now apply IH).
    assert (ISs : forall st r b, keys st = ks -> keyed ks snd (run_stmts items faddr sidx sys n r b st)) by (intros st1 r b K1; now apply IH).
    assert (IB : forall st r o, keys st = ks -> keyed ks snd (run_block items faddr sidx sys n r o st)) by (intros st1 r o K1; now apply IH).
    assert (IF : forall st r d l b, keys st = ks -> keyed ks snd (run_for items faddr sidx sys n r d l b st)) by (intros st1 r d l b K1; now apply IH).
    assert (CE : forall r l f es, keyed ks snd (run_expr items faddr sidx sys (S n) r (RCall l f es) st)).
    { intros r l f es. rewrite run_expr_S. eapply keyed_bind; [now apply IEs|]. intros [vs st1] K1. cbn [snd] in K1.
      assert (D : forall (A : outcome (aval * sst)), keyed ks snd A -> forall k : aval * sst -> outcome (aval * sst), (forall fv st2, keys st2 = ks -> keyed ks snd (k (fv, st2))) -> keyed ks snd (obind A k)).
      { intros A HA k Hk. eapply keyed_bind; [exact HA|]. intros [fv st2] K2. now apply Hk. }
      assert (Dyn : keyed ks snd (let* (fv, st2) := run_expr items faddr sidx sys n r f st1 in
                match fv with
                | AS (SSys i) => sys i vs st2
                | AS (SFun a) =>
                    match by_addr items faddr a with
                    | Some x => if zlen (snd (fst x)) =? zlen vs then run_call items faddr sidx sys n x vs st2
                                else Error e_bad_num_args st2
                    | None => Undefined
                    end
                | ANone => Undefined
                | _ => let* _ := look st2 fv in Error e_bad_type_operation st2
                end)).
      { apply D; [now apply IE|]. intros fv st2 K2. destruct fv as [|[]|]; try exact I; try (kd; exact K2).
        - destruct (by_addr _ _ _) as [x|]; [|exact I]. destruct (_ =? _); [now apply IC|exact K2].
        - now apply SK. }
      destruct f as [| | | |[|fd]| | | | | |]; try exact Dyn.
      destruct (fd_sys fd); [now apply SK|]. destruct (by_id _ _); [now apply IC|exact I]. }
    split; [|split; [|split; [|split; [|split; [|split]]]]].
    - intros r e. destruct e as [| | | |[d|f] l|d l x l2|l es|l a i|l f es|o l a b|o l a]; try apply CE; rewrite run_expr_S; try exact K.
      + kd. exact K.
      + kd. now apply member_keyed.
      + eapply keyed_bind; [now apply IEs|]. intros [vs st1] K1. destruct es; [exact I|]. exact K1.
      + eapply keyed_bind; [now apply IE|]. intros [iv st1] K1. eapply keyed_bind; [now apply IE|]. intros [av st2] K2. now apply element_keyed.
      + eapply keyed_bind; [now apply IE|]. intros [iv st1] K1. eapply keyed_bind; [now apply IE|]. intros [av st2] K2. now apply apply2_keyed.
      + eapply keyed_bind; [now apply IE|]. intros [iv st1] K1. now apply apply1_keyed.
    - intros r es. rewrite run_exprs_S. destruct es as [|e t]; [exact K|].
      eapply keyed_bind; [now apply IE|]. intros [v st1] K1. eapply keyed_bind; [now apply IEs|]. intros [vs st2] K2. exact K2.
    - intros [[f args] body] vs. rewrite run_call_S. destruct (_ =? _); [|exact I].
      eapply keyed_bind; [now apply ISs|]. intros [[o r1] st1] K1. destruct o; exact K1.
    - intros r s. rewrite run_stmt_S. destruct s as [d oe|d l e|d l x l2 e|d l i e|l f es|l c t f|l c b|l d l2 a b body|l oe].
      + destruct (vd_kind d); try exact I. destruct (vd_const d); [exact I|]. destruct oe; [|exact K].
        eapply keyed_bind; [now apply IE|]. intros [v st1] K1. exact K1.
      + eapply keyed_bind; [now apply IE|]. intros [v st1] K1. eapply keyed_bind; [now apply write_keyed|]. intros [r1 st2] K2. exact K2.
      + eapply keyed_bind; [now apply IE|]. intros [v st1] K1. kd. exact K1.
      + eapply keyed_bind; [now apply IE|]. intros [v st1] K1. eapply keyed_bind; [now apply IE|]. intros [iv st2] K2. kd.
        eapply keyed_bind; [now apply set_element_keyed|]. intros st3 K3. exact K3.
      + eapply keyed_bind; [now apply IE|]. intros [v st1] K1. exact K1.
      + eapply keyed_bind; [now apply IE|]. intros [v st1] K1. kd. now apply IB.
      + eapply keyed_bind; [now apply IE|]. intros [v st1] K1. kd. destruct a; [|exact K1].
        eapply keyed_bind; [now apply IB|]. intros [[o r1] st2] K2. destruct o; [exact K2|now apply IS].
      + eapply keyed_bind; [now apply IE|]. intros [v st1] K1. eapply keyed_bind; [now apply write_keyed|]. intros [r1 st2] K2. now apply IF.
      + destruct oe; [|exact K]. eapply keyed_bind; [now apply IE|]. intros [v st1] K1. exact K1.
    - intros r b. rewrite run_stmts_S. destruct b as [|s t]; [exact K|].
      eapply keyed_bind; [now apply IS|]. intros [[o r1] st1] K1. destruct o; [exact K1|now apply ISs].
    - intros r o. rewrite run_block_S. destruct o as [b|]; [|exact K].
      eapply keyed_bind; [now apply ISs|]. intros [[o r1] st1] K1. exact K1.
    - intros r d limit body. rewrite run_for_S. kd. eapply keyed_bind; [now apply IE|]. intros [m st1] K1.
      eapply keyed_bind; [now apply apply2_keyed|]. intros [t st2] K2. kd. destruct a0; [|exact K2].
      eapply keyed_bind; [now apply IB|]. intros [[o r1] st3] K3. destruct o; [exact K3|]. kd.
      eapply keyed_bind; [now apply apply2_keyed|]. intros [i2 st4] K4. eapply keyed_bind; [now apply write_keyed|]. intros [r2 st5] K5.
      now apply IF.
  Qed.
  Lemma init_keys n l : forall ks st, keys st = ks -> keyed ks (fun s => s) (init_from items faddr sidx sys n l st).
  Proof.
    induction l as [|i l IH]; intros ks st K; cbn [init_from]; [exact K|].
    destruct i as [f|d [e|]|f args body lend]; try (now apply IH). destruct (vd_const d); [now apply IH|].
    eapply keyed_bind; [now apply keys_kept|]. intros [v st1] K1. eapply keyed_bind; [now apply write_keyed|]. intros [r st2] K2. now apply IH.
  Qed.
End Keys.
Lemma vm_sys_keyed q i vs st : keyed (keys st) snd (vm_sys q i vs st).
Proof. unfold vm_sys. destruct (do_syscall _ _ _ _ _) as [[u s]|x l|x]; cbn; auto. destruct (t_err (m_cur s)); [reflexivity|]. destruct (t_stk (m_cur s)) as [|v [|]]; cbn; auto. Qed.
