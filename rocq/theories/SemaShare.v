(** Proofs that semantic analysis shares a literal between two places only when
    both are uses of one named constant. *)
From Coq Require Import ZArith List Bool Lia String ZifyBool Permutation.
From Verif Require Import Base BaseFacts F32 Program Ast PrintFacts Sema SemaSpec SemaFacts ConstFacts OptSpec SemaIds ShareSpec.
Import ListNotations.
Open Scope list_scope.
Open Scope Z_scope.

(** The literals of expressions, of items. *)
Definition lits (e : rexpr) : list nat := flat_map literal_node (inside e).
Definition all_lits (es : list rexpr) : list nat := flat_map lits es.
Definition item_lits (i : ritem) : list nat := all_lits (exprs_item i).

Lemma all_lits_app a b : all_lits (a ++ b) = all_lits a ++ all_lits b.
Proof. apply flat_map_app. Qed.
Lemma lits_exprs es : flat_map literal_node (flat_map inside es) = all_lits es.
Proof. unfold all_lits, lits. induction es; cbn [flat_map]; [reflexivity|]. rewrite flat_map_app. congruence. Qed.
Lemma lits_array l es : lits (RArray l es) = all_lits es.
Proof. unfold lits at 1. cbn [inside flat_map literal_node app]. apply lits_exprs. Qed.
Lemma lits_index l a i : lits (RIndex l a i) = lits a ++ lits i.
Proof. unfold lits at 1. cbn [inside flat_map literal_node app]. apply flat_map_app. Qed.
Lemma lits_call l f es : lits (RCall l f es) = lits f ++ all_lits es.
Proof. unfold lits at 1. cbn [inside flat_map literal_node app]. rewrite flat_map_app, lits_exprs. reflexivity. Qed.
Lemma lits_bin o l a b : lits (RBin o l a b) = lits a ++ lits b.
Proof. unfold lits at 1. cbn [inside flat_map literal_node app]. apply flat_map_app. Qed.
Lemma lits_un o l a : lits (RUn o l a) = lits a.
Proof. reflexivity. Qed.

Lemma NoDup_halves {A} (a b : list A) : NoDup (a ++ b) -> NoDup a /\ NoDup b /\ forall x, In x a -> ~ In x b.
Proof.
  induction a as [|y a IH]; cbn [app]; intros H.
  - split; [constructor|]. split; [exact H|]. intros x [].
  - inversion H as [|? ? N D]; subst. destruct (IH D) as (I1 & I2 & I3). rewrite in_app_iff in N. split; [constructor; tauto|].
    split; [exact I2|]. intros x [->|I]; [tauto|auto].
Qed.
Lemma NoDup_ends {A} (a b c : list A) : NoDup (a ++ b ++ c) -> NoDup (a ++ c).
Proof.
  induction a as [|y a IH]; cbn [app]; intros H.
  - now apply NoDup_halves in H.
  - inversion H as [|? ? N D]; subst. constructor; [|auto]. rewrite !in_app_iff in *. tauto.
Qed.

Lemma fresh_swap n l m l' k : fresh n l m -> fresh m l' k -> fresh n (l' ++ l) k.
Proof.
  intros A B. destruct (fresh_app _ _ _ _ _ A B) as (H1 & H2 & H3). split; [exact H1|].
  split; [eapply Permutation_NoDup; [apply Permutation_app_comm|exact H2]|]. rewrite Forall_app in *. tauto.
Qed.
Lemma fresh_wide n l m n' m' : fresh n l m -> (n' <= n)%nat -> (m <= m')%nat -> fresh n' l m'.
Proof. intros (A & B & C) L M. split; [lia|]. split; [exact B|]. eapply Forall_impl; [|exact C]. cbv beta. lia. Qed.

(** ** Annotation makes a new literal each time *)
Section Ann.
  Context (addr : nat -> Z).
  Definition ann_f (e : expr) : Prop := forall sc n r n', ann_expr addr sc e n = Ok (r, n') -> fresh n (lits r) n'.
  Lemma ann_fs es : Forall ann_f es -> forall sc n rs n',
    each (ann_expr addr sc) es n = Ok (rs, n') -> fresh n (all_lits rs) n'.
  Proof.
    induction 1 as [|e es He Hes IH]; intros sc n rs n' E; cbn [each] in *.
    - inversion E; subst. now apply fresh_nil.
    - inv_bind E. destruct a. inv_bind E. destruct a. inversion E; subst.
      cbn [all_lits flat_map]. eapply fresh_app; eauto.
  Qed.
  Lemma ann_expr_f e : ann_f e.
  Proof.
    induction e using expr_nested; intros sc n r n' E; cbn [ann_expr] in *.
    - inversion E; subst. apply (fresh_one n n). lia.
    - inversion E; subst. now apply fresh_nil.
    - inversion E; subst. now apply fresh_nil.
    - inversion E; subst. now apply fresh_nil.
    - destruct (find_decl addr x sc); inversion E; subst. now apply fresh_nil.
    - destruct (find_decl addr x sc) as [[]|]; inversion E; subst. now apply fresh_nil.
    - inv_bind E. destruct a. inversion E; subst. rewrite lits_array. eapply ann_fs; eassumption.
    - inv_bind E. destruct a. inv_bind E. destruct a. inversion E; subst. rewrite lits_index. eapply fresh_app; eauto.
    - inv_bind E. destruct a. inv_bind E. destruct a. inversion E; subst. rewrite lits_call.
      eapply fresh_swap; [eapply ann_fs; eassumption|eauto].
    - inv_bind E. destruct a. inv_bind E. destruct a. inversion E; subst. rewrite lits_bin. eapply fresh_app; eauto.
    - inv_bind E. destruct a. inversion E; subst. rewrite lits_un. eauto.
  Qed.
  Lemma ann_exprs_f es sc n rs n' : each (ann_expr addr sc) es n = Ok (rs, n') -> fresh n (all_lits rs) n'.
  Proof. apply ann_fs. apply Forall_forall. intros e _. apply ann_expr_f. Qed.
  Lemma ann_opt_f o sc n r n' : ann_opt addr sc o n = Ok (r, n') -> fresh n (all_lits (opt_list r)) n'.
  Proof.
    destruct o; cbn [ann_opt]; intros E.
    - inv_bind E. destruct a. inversion E; subst. cbn [opt_list all_lits flat_map]. rewrite app_nil_r. eapply ann_expr_f; eassumption.
    - inversion E; subst. now apply fresh_nil.
  Qed.
  Definition ann_sf (s : stmt) : Prop := forall st r st', ann_stmt addr s st = Ok (r, st') ->
    fresh (snd st) (all_lits (exprs_stmt r)) (snd st').
  Lemma ann_block_f b : Forall ann_sf b -> forall st rb st', each (ann_stmt addr) b st = Ok (rb, st') ->
    fresh (snd st) (all_lits (flat_map exprs_stmt rb)) (snd st').
  Proof.
    induction 1 as [|s b Hs Hb IH]; intros st rb st' E; cbn [each] in *.
    - inversion E; subst. now apply fresh_nil.
    - inv_bind E. destruct a. inv_bind E. destruct a. inversion E; subst. cbn [flat_map]. rewrite all_lits_app.
      eapply fresh_app; eauto.
  Qed.
  Lemma lits_cons e es : all_lits (e :: es) = lits e ++ all_lits es.
  Proof. reflexivity. Qed.
  Lemma lits_one e : all_lits [e] = lits e.
  Proof. cbn [all_lits flat_map]. apply app_nil_r. Qed.
  Lemma ann_stmt_f s : ann_sf s.
  Proof.
    induction s using stmt_nested; intros [sc n] r st' E; cbn [ann_stmt] in *; cbn [snd].
    - inv_bind E. destruct a. inversion E; subst. cbn [snd exprs_stmt]. eapply fresh_wide; [eapply ann_opt_f; eassumption|lia|lia].
    - inv_bind E. destruct a. inv_bind E. inversion E; subst. cbn [snd exprs_stmt]. rewrite lits_one. eapply ann_expr_f; eassumption.
    - inv_bind E. destruct a. inv_bind E. inversion E; subst. cbn [snd exprs_stmt]. rewrite lits_one. eapply ann_expr_f; eassumption.
    - inv_bind E. destruct a. inv_bind E. destruct a. inv_bind E. inversion E; subst. cbn [snd exprs_stmt].
      rewrite lits_cons, lits_one. eapply fresh_app; eapply ann_expr_f; eassumption.
    - inv_bind E. destruct a. inv_bind E. destruct a. inversion E; subst. cbn [snd exprs_stmt].
      rewrite lits_one, lits_call. eapply fresh_swap; [eapply ann_exprs_f; eassumption|].
      eapply (ann_expr_f (EIdent x l)). exact E1.
    - inv_bind E. destruct a. inv_bind E. destruct a as [rt [sc2 n2]]. cbn [bind] in E. inversion E; subst.
      cbn [snd fst exprs_stmt]. rewrite app_nil_r, lits_cons. eapply fresh_app; [eapply ann_expr_f; eassumption|].
      exact (ann_block_f _ H _ _ _ E1).
    - inv_bind E. destruct a. inv_bind E. destruct a as [rt [sc2 n2]]. inv_bind E. destruct a as [rf [sc3 n3]]. inv_bind E2. destruct a as [rg [sc4 n4]].
      inversion E2; subst. inversion E; subst.
      cbn [snd fst exprs_stmt]. rewrite lits_cons, all_lits_app. eapply fresh_app; [eapply ann_expr_f; eassumption|].
      eapply fresh_app; [exact (ann_block_f _ H _ _ _ E1)|exact (ann_block_f _ H0 _ _ _ E3)].
    - inv_bind E. destruct a. inv_bind E. destruct a as [rt [sc2 n2]]. inversion E; subst.
      cbn [snd fst exprs_stmt]. rewrite lits_cons. eapply fresh_app; [eapply ann_expr_f; eassumption|].
      exact (ann_block_f _ H _ _ _ E1).
    - inv_bind E. inv_bind E. destruct a1. inv_bind E. destruct a1. inv_bind E. destruct a1 as [rt [sc2 n2]]. inversion E; subst.
      cbn [snd fst exprs_stmt]. rewrite !lits_cons. eapply fresh_app; [eapply ann_expr_f; eassumption|].
      eapply fresh_app; [eapply ann_expr_f; eassumption|]. exact (ann_block_f _ H _ _ _ E3).
    - inv_bind E. destruct a. inversion E; subst. cbn [snd exprs_stmt]. eapply ann_opt_f; eassumption.
  Qed.
  Lemma ann_child_f g dc n i n' : ann_child addr g dc n = Ok (i, n') -> fresh n (item_lits i) n'.
  Proof.
    destruct dc as [d c]. intros E. unfold item_lits.
    destruct c as [x k|[x l oe|x l oe|x l args body lend|p l]]; destruct d; cbn [ann_child] in *;
      try (inversion E; subst; now apply fresh_nil).
    - inv_bind E. destruct a. inversion E; subst. eapply ann_opt_f. eassumption.
    - inv_bind E. destruct a. inversion E; subst. eapply ann_opt_f. eassumption.
    - inv_bind E. destruct a as [rb [sc2 n2]]. inversion E; subst. cbn [exprs_item snd].
      pose proof (ann_block_f body (proj2 (Forall_forall _ _) (fun s _ => ann_stmt_f s)) _ _ _ E0) as A.
      cbn [snd] in A. eapply fresh_wide; [exact A|lia|lia].
  Qed.
  Lemma ann_children_f g ds : forall n r n', each (ann_child addr g) ds n = Ok (r, n') -> fresh n (flat_map item_lits r) n'.
  Proof.
    induction ds as [|d ds IH]; intros n r n' E; cbn [each] in E.
    - inversion E; subst. now apply fresh_nil.
    - inv_bind E. destruct a. inv_bind E. destruct a. inversion E; subst. cbn [flat_map].
      eapply fresh_app; [eapply ann_child_f; eassumption|eauto].
  Qed.
End Ann.
Lemma annotate_f addr cs r n : annotate addr cs = Ok (r, n) -> fresh 0 (flat_map item_lits r) n.
Proof.
  unfold annotate. destruct (number cs 0) as [ds m]. intros E. eapply fresh_wide; [eapply ann_children_f; exact E|lia|lia].
Qed.

(** ** Folding replaces an initialiser by a new literal *)
Lemma fresh_keep n a b c m m' : fresh n (a ++ b ++ c) m -> (m <= m')%nat ->
  forall b', (b' = b \/ b' = [] \/ b' = [m] /\ (m < m')%nat) -> fresh n (a ++ b' ++ c) m'.
Proof.
  intros H L b' [->|[->|[-> L2]]].
  - eapply fresh_wide; [exact H|lia|exact L].
  - destruct H as (A & B & C). split; [lia|]. rewrite !Forall_app in C. split.
    + exact (NoDup_ends _ _ _ B).
    + cbn [app]. rewrite Forall_app. split; (eapply Forall_impl; [|apply C]); cbv beta; lia.
  - destruct H as (A & B & C). rewrite !Forall_app in C. destruct C as (C1 & C2 & C3). split; [lia|]. split.
    + pose proof (NoDup_ends _ _ _ B) as D.
      eapply Permutation_NoDup; [apply Permutation_middle|]. constructor; [|exact D].
      rewrite in_app_iff. rewrite Forall_forall in C1, C3. intros [X|X]; [specialize (C1 _ X)|specialize (C3 _ X)]; lia.
    + rewrite !Forall_app. split; [|split].
      * eapply Forall_impl; [|exact C1]. cbv beta. lia.
      * constructor; [lia|constructor].
      * eapply Forall_impl; [|exact C3]. cbv beta. lia.
Qed.
Lemma glob_expr_f items e n o b n' : glob_expr items e n = Ok (o, b, n') ->
  (n <= n')%nat /\ (all_lits (opt_list o) = lits e \/ all_lits (opt_list o) = [] \/ all_lits (opt_list o) = [n] /\ (n < n')%nat).
Proof.
  assert (EV : forall e, (o0 <- eval items e ;; match o0 with Some v => Ok (Some (RInt n v None), true, S n) | None => Ok (Some e, false, n) end) = Ok (o, b, n') ->
    (n <= n')%nat /\ (all_lits (opt_list o) = lits e \/ all_lits (opt_list o) = [] \/ all_lits (opt_list o) = [n] /\ (n < n')%nat)).
  { intros e0 E. inv_bind E. destruct a as [v|]; inversion E; subst; cbn [opt_list].
    - split; [lia|]. right. right. split; [reflexivity|lia].
    - split; [lia|]. left. apply lits_one. }
  destruct e; cbn [glob_expr]; intros E; try (now apply EV);
    inversion E; subst; (split; [lia|]); cbn [opt_list]; auto; left; apply lits_one.
Qed.
Lemma run_globals_f todo : forall done ch n js ch' n', fresh 0 (flat_map item_lits (done ++ todo)) n ->
  run_globals done todo ch n = Ok (js, ch', n') -> fresh 0 (flat_map item_lits js) n'.
Proof.
  induction todo as [|i todo IH]; intros done ch n js ch' n' H E; cbn [run_globals] in E.
  - inversion E; subst. rewrite app_nil_r in H. exact H.
  - rewrite flat_map_app in H. cbn [flat_map] in H.
    assert (K : fresh 0 (flat_map item_lits ((done ++ [i]) ++ todo)) n).
    { rewrite <- app_assoc, flat_map_app. cbn [app flat_map]. exact H. }
    destruct i as [f|d [e|]|f args body lend]; try (eapply IH; [|exact E]; exact K).
    inv_bind E. destruct a as [[o b] m]. destruct (glob_expr_f _ _ _ _ _ _ E0) as [A1 A2].
    eapply IH; [|exact E]. rewrite <- app_assoc, flat_map_app. cbn [app flat_map].
    eapply fresh_keep; [exact H|exact A1|]. unfold item_lits. cbn [exprs_item opt_list]. rewrite lits_one. exact A2.
Qed.
Lemma glob_loop_f fuel : forall items n js n', fresh 0 (flat_map item_lits items) n ->
  glob_loop fuel items n = Ok (js, n') -> fresh 0 (flat_map item_lits js) n'.
Proof.
  induction fuel as [|fuel IH]; intros items n js n' H E; cbn [glob_loop] in E; [discriminate|].
  inv_bind E. destruct a as [[is c] m]. pose proof (run_globals_f _ [] _ _ _ _ _ H E0) as A.
  destruct c; [|inversion E; subst; auto]. eauto.
Qed.
Lemma global_vars_f items n js n' : fresh 0 (flat_map item_lits items) n -> Sema.global_vars items n = Ok (js, n') ->
  fresh 0 (flat_map item_lits js) n'.
Proof.
  intros H E. unfold Sema.global_vars in E. inv_bind E. destruct a as [is m]. inv_bind E. destruct a as [[is2 c] m2].
  inversion E; subst. exact (run_globals_f _ [] _ _ _ _ _ (glob_loop_f _ _ _ _ _ H E0) E1).
Qed.

(** ** Inlining duplicates literals of initialisers only *)
Notation occ := (count_occ Nat.eq_dec).

Section Inline.
  (** a set that holds the literals of every initialiser *)
  Context (K : nat -> Prop).
  Definition global_in (i : ritem) : Prop :=
    match i with RGlobal _ oe => Forall K (all_lits (opt_list oe)) | _ => True end.

  Section At.
    Context (items : list ritem) (GI : Forall global_in items) (id : nat) (NK : ~ K id).
    Lemma global_expr_K k e : global_expr items k = Some e -> Forall K (lits e).
    Proof.
      intros E. destruct (global_expr_some _ _ _ E) as (d & I & _). rewrite Forall_forall in GI. specialize (GI _ I).
      cbn [global_in opt_list] in GI. now rewrite lits_one in GI.
    Qed.
    Lemma const_lit_K d l e : const_lit items d l = Ok (Some e) -> Forall K (lits e).
    Proof.
      intros E. destruct d as [d|f]; cbn [const_lit] in E; [|discriminate].
      destruct (negb (vd_const d)); [discriminate|].
      destruct (global_expr items (vd_id d)) as [e0|] eqn:G; [|discriminate].
      apply global_expr_K in G. destruct e0; inversion E; subst; exact G.
    Qed.
    Lemma occ_K l : Forall K l -> occ l id = 0%nat.
    Proof. intros F. apply count_occ_not_In. intros I. rewrite Forall_forall in F. apply NK. auto. Qed.

    Definition con_le (e : rexpr) : Prop := forall r, con_expr items e = Ok r -> (occ (lits r) id <= occ (lits e) id)%nat.
    Lemma con_exprs_le es : Forall con_le es -> forall rs, each_ (con_expr items) es = Ok rs ->
      (occ (all_lits rs) id <= occ (all_lits es) id)%nat.
    Proof.
      induction 1 as [|e es He Hes IH]; intros rs E; cbn [each_] in E.
      - inversion E; subst. lia.
      - inv_bind E. inv_bind E. inversion E; subst. rewrite !lits_cons, !count_occ_app.
        specialize (He _ E0). specialize (IH _ E1). lia.
    Qed.
    Lemma con_expr_le e : con_le e.
    Proof.
      induction e using rexpr_nested; intros r E; cbn [con_expr] in E;
        try (inversion E; subst; lia).
      - inv_bind E. destruct a as [e'|]; inversion E; subst; [|lia]. rewrite (occ_K _ (const_lit_K _ _ _ E0)). lia.
      - inv_bind E. inversion E; subst. rewrite !lits_array. eapply con_exprs_le; eassumption.
      - inv_bind E. inv_bind E. inversion E; subst. rewrite !lits_index, !count_occ_app.
        specialize (IHe1 _ E0). specialize (IHe2 _ E1). lia.
      - inv_bind E. pose proof (con_exprs_le _ H _ E0) as A.
        assert (G : forall rf, con_expr items e = Ok rf -> r = RCall l rf a -> (occ (lits r) id <= occ (lits (RCall l e es)) id)%nat).
        { intros rf Ef ->. rewrite !lits_call, !count_occ_app. specialize (IHe _ Ef). lia. }
        destruct e; try (inv_bind E; inversion E; subst; eapply G; [exact E1|reflexivity]).
        inv_bind E. inversion E; subst. rewrite !lits_call, !count_occ_app. lia.
      - inv_bind E. inv_bind E. inversion E; subst. rewrite !lits_bin, !count_occ_app.
        specialize (IHe1 _ E0). specialize (IHe2 _ E1). lia.
      - inv_bind E. inversion E; subst. rewrite !lits_un. eauto.
    Qed.
    Lemma con_opt_le o r : con_opt items o = Ok r -> (occ (all_lits (opt_list r)) id <= occ (all_lits (opt_list o)) id)%nat.
    Proof.
      destruct o as [e|]; cbn [con_opt]; intros E.
      - inv_bind E. inversion E; subst. cbn [opt_list]. rewrite !lits_one. now apply con_expr_le.
      - inversion E; subst. lia.
    Qed.
    Definition con_sle (s : rstmt) : Prop := forall r, con_stmt items s = Ok r ->
      (occ (all_lits (exprs_stmt r)) id <= occ (all_lits (exprs_stmt s)) id)%nat.
    Lemma con_block_le b : Forall con_sle b -> forall rb, each_ (con_stmt items) b = Ok rb ->
      (occ (all_lits (flat_map exprs_stmt rb)) id <= occ (all_lits (flat_map exprs_stmt b)) id)%nat.
    Proof.
      induction 1 as [|s b Hs Hb IH]; intros rb E; cbn [each_] in E.
      - inversion E; subst. lia.
      - inv_bind E. inv_bind E. inversion E; subst. cbn [flat_map]. rewrite !all_lits_app, !count_occ_app.
        specialize (Hs _ E0). specialize (IH _ E1). lia.
    Qed.
    Lemma con_oblock_le o : oall con_sle o -> forall r,
      match o with None => Ok None | Some b => x <- each_ (con_stmt items) b ;; Ok (Some x) end = Ok r ->
      (occ (all_lits (oblock_exprs r)) id <= occ (all_lits (oblock_exprs o)) id)%nat.
    Proof.
      destruct o as [b|]; cbn [oall]; intros H r E.
      - inv_bind E. inversion E; subst. cbn [oblock_exprs]. now apply con_block_le.
      - inversion E; subst. lia.
    Qed.
    Lemma con_stmt_le s : con_sle s.
    Proof.
      induction s using rstmt_nested; intros r E; cbn [con_stmt] in E.
      - inv_bind E. inversion E; subst. cbn [exprs_stmt]. now apply con_opt_le.
      - destruct (vd_const d); [discriminate|]. inv_bind E. inversion E; subst. cbn [exprs_stmt]. rewrite !lits_one. now apply con_expr_le.
      - inv_bind E. inversion E; subst. cbn [exprs_stmt]. rewrite !lits_one. now apply con_expr_le.
      - inv_bind E. inv_bind E. inversion E; subst. cbn [exprs_stmt]. rewrite !lits_cons, !count_occ_app.
        apply con_expr_le in E0. apply con_expr_le in E1. lia.
      - inv_bind E. destruct a as [rf rs]. inversion E; subst. unfold con_call in E0. inv_bind E0.
        destruct a; inversion E0; subst. apply con_expr_le in E1. cbn [exprs_stmt]. rewrite !lits_one.
        rewrite !lits_call, !count_occ_app in *. exact E1.
      - inv_bind E. inv_bind E. inv_bind E. inversion E; subst. cbn [exprs_stmt]. fold (oblock_exprs a0). fold (oblock_exprs a1). fold (oblock_exprs t). fold (oblock_exprs f).
        rewrite !lits_cons, !all_lits_app, !count_occ_app.
        apply con_expr_le in E0. apply con_oblock_le in E1; [|assumption]. apply con_oblock_le in E2; [|assumption]. lia.
      - inv_bind E. inv_bind E. inversion E; subst. cbn [exprs_stmt]. fold (oblock_exprs a0). fold (oblock_exprs b).
        rewrite !lits_cons, !count_occ_app. apply con_expr_le in E0. apply con_oblock_le in E1; [|assumption]. lia.
      - inv_bind E. inv_bind E. inv_bind E. inversion E; subst. cbn [exprs_stmt].
        rewrite !lits_cons, !count_occ_app. apply con_expr_le in E0. apply con_expr_le in E1.
        apply con_block_le in E2; [|assumption]. lia.
      - inv_bind E. inversion E; subst. cbn [exprs_stmt]. now apply con_opt_le.
    Qed.
    Lemma con_item_le i r : con_item items i = Ok r -> (occ (item_lits r) id <= occ (item_lits i) id)%nat.
    Proof.
      unfold item_lits. destruct i as [f|d oe|f args body lend]; cbn [con_item]; intros E.
      - inversion E; subst. lia.
      - inv_bind E. apply con_opt_le in E0. destruct a as [e|]; [|destruct (vd_const d); [discriminate|]]; inversion E; subst; exact E0.
      - inv_bind E. inversion E; subst. cbn [exprs_item]. apply con_block_le in E0; [exact E0|]. apply Forall_forall. intros s _. apply con_stmt_le.
    Qed.
  End At.

  Context (KD : forall id, K id \/ ~ K id).
  Lemma con_item_K items i r : Forall global_in items -> global_in i -> con_item items i = Ok r -> global_in r.
  Proof.
    intros GI G E. destruct i as [f|d oe|f args body lend].
    - cbn [con_item] in E. inversion E; subst. exact Logic.I.
    - assert (R : exists re, r = RGlobal d re).
      { cbn [con_item] in E. inv_bind E. destruct a as [e|]; [|destruct (vd_const d); [discriminate|]]; inversion E; subst; eauto. }
      destruct R as [re ->]. cbn [global_in] in *. apply Forall_forall. intros id I. destruct (KD id) as [Y|N]; [exact Y|].
      pose proof (con_item_le items GI id N _ _ E) as L. unfold item_lits in L. cbn [exprs_item] in L.
      rewrite Forall_forall in G. apply G. apply (count_occ_In Nat.eq_dec). apply (count_occ_In Nat.eq_dec) in I. lia.
    - cbn [con_item] in E. inv_bind E. inversion E; subst. exact Logic.I.
  Qed.
  Lemma con_items_le todo : forall done r, Forall global_in (done ++ todo) -> con_items done todo = Ok r ->
    forall id, ~ K id -> (occ (flat_map item_lits r) id <= occ (flat_map item_lits (done ++ todo)) id)%nat.
  Proof.
    induction todo as [|i todo IH]; intros done r H E id NK; cbn [con_items] in E.
    - inversion E; subst. rewrite app_nil_r. lia.
    - inv_bind E.
      assert (G : Forall global_in ((done ++ [a]) ++ todo)).
      { rewrite <- app_assoc. pose proof H as H0. rewrite Forall_app in *. destruct H as [H1 H2]. inversion H2; subst. split; [exact H1|].
        cbn [app]. constructor; [|assumption]. eapply con_item_K; [|eassumption|exact E0]. rewrite Forall_app. auto. }
      specialize (IH _ _ G E id NK). pose proof (con_item_le _ H id NK _ _ E0) as L.
      rewrite <- app_assoc in IH. rewrite flat_map_app in IH. cbn [app flat_map] in IH. rewrite !count_occ_app in IH.
      rewrite flat_map_app. cbn [flat_map]. rewrite !count_occ_app. lia.
  Qed.
End Inline.

(** ** Where the [if]s of the result come from *)
Definition if_from (items : list ritem) (b b' : list rstmt) : Prop :=
  forall l c' t' f', In (RIf l c' t' f') (flat_map within b') ->
  exists c t f, In (RIf l c t f) (flat_map within b) /\ con_expr items c = Ok c'.
Lemma if_from_app items a a' b b' : if_from items a a' -> if_from items b b' -> if_from items (a ++ b) (a' ++ b').
Proof.
  intros A B l c' t' f' I. rewrite flat_map_app, in_app_iff in I. destruct I as [I|I]; [destruct (A _ _ _ _ I) as (c & t & f & X & Y)|destruct (B _ _ _ _ I) as (c & t & f & X & Y)];
    exists c, t, f; (split; [rewrite flat_map_app, in_app_iff; auto|exact Y]).
Qed.
Definition con_if (items : list ritem) (s : rstmt) : Prop := forall r, con_stmt items s = Ok r -> if_from items [s] [r].
Lemma con_block_if items b : Forall (con_if items) b -> forall rb, each_ (con_stmt items) b = Ok rb -> if_from items b rb.
Proof.
  induction 1 as [|s b Hs Hb IH]; intros rb E; cbn [each_] in E.
  - inversion E; subst. intros ? ? ? ? [].
  - inv_bind E. inv_bind E. inversion E; subst. apply (if_from_app items [s] [a] b a0); auto.
Qed.
Definition oblock (o : option (list rstmt)) : list rstmt := match o with Some b => b | None => [] end.
Lemma con_oblock_if items o : oall (con_if items) o -> forall r,
  match o with None => Ok None | Some b => x <- each_ (con_stmt items) b ;; Ok (Some x) end = Ok r ->
  if_from items (oblock o) (oblock r).
Proof.
  destruct o as [b|]; cbn [oall]; intros H r E.
  - inv_bind E. inversion E; subst. now apply con_block_if.
  - inversion E; subst. intros ? ? ? ? [].
Qed.
Lemma within_if l c t f : within (RIf l c t f) = RIf l c t f :: flat_map within (oblock t) ++ flat_map within (oblock f).
Proof. destruct t, f; reflexivity. Qed.
Lemma within_while l c b : within (RWhile l c b) = RWhile l c b :: flat_map within (oblock b).
Proof. destruct b; reflexivity. Qed.
Lemma con_stmt_if items s : con_if items s.
Proof.
  induction s using rstmt_nested; intros r E; cbn [con_stmt] in E.
  - inv_bind E. inversion E; subst. intros ? ? ? ? [X|[]]; discriminate X.
  - destruct (vd_const d); [discriminate|]. inv_bind E. inversion E; subst. intros ? ? ? ? [X|[]]; discriminate X.
  - inv_bind E. inversion E; subst. intros ? ? ? ? [X|[]]; discriminate X.
  - inv_bind E. inv_bind E. inversion E; subst. intros ? ? ? ? [X|[]]; discriminate X.
  - inv_bind E. destruct a. inversion E; subst. intros ? ? ? ? [X|[]]; discriminate X.
  - inv_bind E. inv_bind E. inv_bind E. inversion E; subst.
    apply con_oblock_if in E1; [|assumption]. apply con_oblock_if in E2; [|assumption].
    intros l' c' t' f' J. cbn [flat_map] in J. rewrite app_nil_r, within_if in J. destruct J as [J|J].
    + inversion J; subst. exists c, t, f. split; [|exact E0]. cbn [flat_map]. rewrite app_nil_r, within_if. left. reflexivity.
    + rewrite <- flat_map_app in J. destruct (if_from_app _ _ _ _ _ E1 E2 _ _ _ _ J) as (c1 & t1 & f1 & X & Y).
      exists c1, t1, f1. split; [|exact Y]. cbn [flat_map]. rewrite app_nil_r, within_if. right. rewrite <- flat_map_app. exact X.
  - inv_bind E. inv_bind E. inversion E; subst. apply con_oblock_if in E1; [|assumption].
    intros l' c' t' f' J. cbn [flat_map] in J. rewrite app_nil_r, within_while in J. destruct J as [J|J]; [discriminate J|].
    destruct (E1 _ _ _ _ J) as (c1 & t1 & f1 & X & Y). exists c1, t1, f1. split; [|exact Y].
    cbn [flat_map]. rewrite app_nil_r, within_while. right. exact X.
  - inv_bind E. inv_bind E. inv_bind E. inversion E; subst. apply con_block_if in E2; [|assumption].
    intros l' c' t' f' J. cbn [flat_map within] in J. rewrite app_nil_r in J. destruct J as [J|J]; [discriminate J|].
    destruct (E2 _ _ _ _ J) as (c1 & t1 & f1 & X & Y). exists c1, t1, f1. split; [|exact Y].
    cbn [flat_map within]. rewrite app_nil_r. right. exact X.
  - inv_bind E. inversion E; subst. intros ? ? ? ? [X|[]]; discriminate X.
Qed.
Lemma con_items_if todo : forall done r, con_items done todo = Ok r ->
  exists fin, r = done ++ fin /\ forall f args body lend, In (RFunc f args body lend) fin ->
    exists body0 cur, In (RFunc f args body0 lend) todo /\ if_from cur body0 body.
Proof.
  induction todo as [|i todo IH]; intros done r E; cbn [con_items] in E.
  - inversion E; subst. exists []. split; [now rewrite app_nil_r|]. intros ? ? ? ? [].
  - inv_bind E. destruct (IH _ _ E) as (fin & -> & H). exists (a :: fin). split; [now rewrite <- app_assoc|].
    intros f args body lend [->|J].
    + destruct i as [?|d oe|? ? ? ?]; cbn [con_item] in E0.
      * discriminate E0.
      * inv_bind E0. destruct a as [e|]; [|destruct (vd_const d)]; discriminate E0.
      * inv_bind E0. inversion E0; subst. eexists _, _. split; [left; reflexivity|].
        apply con_block_if; [|exact E1]. apply Forall_forall. intros s _. apply con_stmt_if.
    + destruct (H _ _ _ _ J) as (b0 & cur & X & Y). exists b0, cur. split; [right; exact X|exact Y].
Qed.

(** What becomes a literal. *)
Lemma con_expr_int items c id v l : con_expr items c = Ok (RInt id v l) ->
  c = RInt id v l \/ exists d lc, c = RIdent (DV d) lc /\ vd_const d = true.
Proof.
  destruct c; cbn [con_expr]; intros E; try (inv_bind E; try (inv_bind E); discriminate E); try (inversion E; auto; fail).
  - inv_bind E. destruct a as [e'|]; [|discriminate E]. right. destruct d as [d|f]; cbn [const_lit] in E0; [|discriminate].
    destruct (vd_const d) eqn:C; [|discriminate]. eauto.
  - inv_bind E. destruct c; try (inv_bind E; discriminate E).
Qed.

(** ** The texts concerned *)

(** A literal of a function is in no initialiser. *)
Lemma NoDup_flat {A B} (f : A -> list B) l a b x : NoDup (flat_map f l) -> In a l -> In b l -> In x (f a) -> In x (f b) -> a = b.
Proof.
  induction l as [|c l IH]; intros N Ia Ib Xa Xb; [destruct Ia|]. cbn [flat_map] in N.
  assert (D : forall y, In y l -> In x (f y) -> In x (f c) -> False).
  { intros y Iy Xy Xc. clear -N Iy Xy Xc. apply NoDup_halves in N. destruct N as (_ & _ & N). apply (N x Xc). apply in_flat_map. eauto. }
  destruct Ia as [->|Ia], Ib as [->|Ib]; [reflexivity| | |].
  - exfalso. eauto.
  - exfalso. eauto.
  - apply IH; auto. now apply NoDup_halves in N.
Qed.

Lemma plain_tests s : forall l c t f, In (RIf l c t f) (within s) -> In (plain_expr c) (if_tests (plain_stmt s)).
Proof.
  assert (B : forall b, Forall (fun s => forall l c t f, In (RIf l c t f) (within s) -> In (plain_expr c) (if_tests (plain_stmt s))) b ->
    forall l c t f, In (RIf l c t f) (flat_map within b) -> In (plain_expr c) (flat_map if_tests (map plain_stmt b))).
  { induction 1 as [|s0 b Hs Hb IH]; intros l c t f I; [destruct I|]. cbn [flat_map map] in *. rewrite in_app_iff in *. destruct I; eauto. }
  induction s using rstmt_nested; intros l0 c0 t0 f0 J; try (destruct J as [J|[]]; discriminate J).
  - rewrite within_if in J. cbn [plain_stmt if_tests]. destruct J as [J|J]; [inversion J; subst; left; reflexivity|].
    right. rewrite in_app_iff in *. destruct J as [J|J].
    + left. destruct t as [t|]; [|destruct J]. eapply B; eassumption.
    + right. destruct f as [f|]; [|destruct J]. eapply B; eassumption.
  - rewrite within_while in J. cbn [plain_stmt if_tests]. destruct J as [J|J]; [discriminate J|].
    destruct b as [b|]; [|destruct J]. eapply B; eassumption.
  - cbn [within plain_stmt if_tests] in *. destruct J as [J|J]; [discriminate J|]. eapply B; eassumption.
Qed.

Lemma plain_const_func regs src items : map plain_item items = flat_map same_child (map (fun r => CSys (fst r) (snd r)) regs ++ map CItem src) ->
  (forall f args body lend, In (RFunc f args body lend) items -> forall c l t e, In (RIf l c t e) (flat_map within body) ->
     In (plain_expr c) (text_tests src)) /\
  (forall d, In (DV d) (top_decls items) -> vd_const d = true -> In (vd_name d) (constant_names src)).
Proof.
  intros E.
  assert (M : forall i j, In i items -> plain_item i = CItem j -> In j src).
  { intros i j I P. assert (X : In (CItem j) (map plain_item items)) by (rewrite <- P; now apply in_map).
    rewrite E in X. apply in_flat_map in X. destruct X as (c & X & Y). rewrite in_app_iff in X. destruct X as [X|X].
    - apply in_map_iff in X. destruct X as (r & <- & _). destruct Y as [Y|[]]. discriminate Y.
    - apply in_map_iff in X. destruct X as (j' & <- & Z). destruct j'; cbn [same_child In] in Y; try contradiction; destruct Y as [Y|[]]; inversion Y; subst; exact Z. }
  split.
  - intros f args body lend I c l t e J. specialize (M _ _ I eq_refl). unfold text_tests. apply in_flat_map. eexists. split; [exact M|].
    cbv beta iota. apply in_flat_map in J. destruct J as (s & J1 & J2). apply in_flat_map. exists (plain_stmt s).
    split; [now apply in_map|]. eapply plain_tests; eassumption.
  - intros d I C. unfold top_decls in I. apply in_map_iff in I. destruct I as (i & T & I). destruct i as [f|d0 oe|f args body lend]; inversion T; subst.
    specialize (M _ _ I eq_refl). rewrite C in M. apply in_flat_map. eexists. split; [exact M|]. left. reflexivity.
Qed.

Lemma if_conds b : forall l c t f, In (RIf l c t f) (within b) -> In c (exprs_stmt b).
Proof.
  assert (B : forall b, Forall (fun s => forall l c t f, In (RIf l c t f) (within s) -> In c (exprs_stmt s)) b ->
    forall l c t f, In (RIf l c t f) (flat_map within b) -> In c (flat_map exprs_stmt b)).
  { induction 1 as [|s0 r Hs Hb IH]; intros l c t f I; [destruct I|]. cbn [flat_map] in *. rewrite in_app_iff in *. destruct I; eauto. }
  induction b using rstmt_nested; intros l0 c0 t0 f0 J; try (destruct J as [J|[]]; discriminate J).
  - rewrite within_if in J. cbn [exprs_stmt]. destruct J as [J|J]; [inversion J; subst; left; reflexivity|].
    right. rewrite in_app_iff in *. destruct J as [J|J].
    + left. destruct t as [t|]; [|destruct J]. eapply B; eassumption.
    + right. destruct f as [f|]; [|destruct J]. eapply B; eassumption.
  - rewrite within_while in J. cbn [exprs_stmt]. destruct J as [J|J]; [discriminate J|]. right.
    destruct b as [b|]; [|destruct J]. eapply B; eassumption.
  - cbn [within exprs_stmt] in *. destruct J as [J|J]; [discriminate J|]. right. right. eapply B; eassumption.
Qed.
Lemma block_conds b l c t f : In (RIf l c t f) (flat_map within b) -> In c (flat_map exprs_stmt b).
Proof. intros I. apply in_flat_map in I. destruct I as (s & I & J). apply in_flat_map. exists s. split; [exact I|]. eapply if_conds; eassumption. Qed.

Lemma code_lits items id : (occ (literal_nodes items) id <= occ (flat_map item_lits items) id)%nat.
Proof.
  unfold literal_nodes. rewrite lits_exprs. induction items as [|i items IH]; [apply le_n|]. cbn [flat_map].
  rewrite all_lits_app, !count_occ_app. apply Nat.add_le_mono; [|exact IH].
  destruct i as [f|d e|f args body lend]; cbn [code_exprs]; [apply le_n| |apply le_n].
  unfold item_lits. cbn [exprs_item]. destruct (vd_const d); [cbn; lia|apply le_n].
Qed.

Lemma folded_funcs lit is js f args body lend : Forall2 (folded lit) is js -> In (RFunc f args body lend) js -> In (RFunc f args body lend) is.
Proof.
  induction 1 as [|i j is js F H IH]; intros I; [exact I|]. destruct I as [->|I]; [|right; auto].
  inversion F; subst. now left.
Qed.

Lemma no_test_unshared addr regs src items n :
  tests_no_constant src ->
  run_sema addr (map (fun r => CSys (fst r) (snd r)) regs ++ map CItem src) = Ok (items, n) -> unshared items.
Proof.
  intros T E id J. unfold run_sema in E. inv_bind E. destruct a as [r0 n0]. inv_bind E. destruct a as [r1 n1].
  inv_bind E. inv_bind E. destruct a0. inv_bind E. destruct a0. inversion E; subst. clear E E3 E4.
  destruct (annotate_inv _ _ _ _ E0) as [Pl In0]. destruct (annotate_tree _ _ _ _ E0) as [Tr B].
  pose proof (annotate_f _ _ _ _ E0) as F0. pose proof (global_vars_f _ _ _ _ F0 E1) as (_ & ND & _).
  destruct (plain_const_func _ _ _ Pl) as [PT PC].
  assert (CK : consts_known r0).
  { split; [|apply uses_settled; [apply Tr|exact In0]]. destruct Tr as [_ Tr]. unfold all_ids in Tr. now apply NoDup_halves in Tr. }
  destruct (global_vars_folded _ _ _ _ CK E1) as [Fo _].
  pose proof (uses_settled _ (proj1 Tr) In0) as St.
  (* the literal comes from the text of a function *)
  unfold if_literals, program_stmts in J. apply in_flat_map in J. destruct J as (s & J1 & J2). apply in_flat_map in J1. destruct J1 as (i & Ii & Js).
  destruct i as [f|d e|f args body lend]; try (destruct Js; fail).
  destruct s; try (destruct J2; fail). destruct c; try (destruct J2; fail). destruct J2 as [->|[]].
  unfold consts in E2. destruct (con_items_if _ _ _ E2) as (fin & Ef & CI). cbn [app] in Ef. subst fin.
  destruct (CI _ _ _ _ Ii) as (body0 & cur & I1 & FR). destruct (FR _ _ _ _ Js) as (c & t1 & f1 & Ic & Ec).
  pose proof (folded_funcs _ _ _ _ _ _ _ Fo I1) as I0.
  apply con_expr_int in Ec. destruct Ec as [->|(d & lc & -> & Cd)].
  2:{ exfalso. pose proof (PT _ _ _ _ I0 _ _ _ _ Ic) as X. cbn [plain_expr decl_name] in X. apply (T _ _ X). apply PC; [|exact Cd].
      destruct (used_program r0 (DV d) lc) as (sc & U).
      { unfold program_exprs. apply in_flat_map. exists (RIdent (DV d) lc). split; [|left; reflexivity].
        apply in_flat_map. eexists. split; [exact I0|]. cbn [exprs_item]. eapply block_conds. exact Ic. }
      rewrite Forall_forall in St. exact (St _ U Cd). }
  assert (L1 : In id (item_lits (RFunc f args body0 lend))).
  { unfold item_lits, all_lits. cbn [exprs_item]. apply in_flat_map. eexists. split; [eapply block_conds; exact Ic|]. left. reflexivity. }
  set (K := fun k => In k (flat_map item_lits (filter (fun i => match i with RGlobal _ _ => true | _ => false end) r1))).
  assert (GI : Forall (global_in K) r1).
  { apply Forall_forall. intros [?|d e|? ? ? ?] X; cbn [global_in]; auto. apply Forall_forall. intros k Ik. unfold K. apply in_flat_map.
    exists (RGlobal d e). split; [apply filter_In; auto|exact Ik]. }
  assert (NK : ~ K id).
  { unfold K. intros X. apply in_flat_map in X. destruct X as (g & Xg & Xi). apply filter_In in Xg. destruct Xg as [Xg Xe].
    pose proof (NoDup_flat _ _ _ _ _ ND I1 Xg L1 Xi) as <-. discriminate Xe. }
  pose proof (con_items_le K (fun k => match in_dec Nat.eq_dec k _ with left a => or_introl a | right b => or_intror b end) r1 [] items GI E2 id NK) as Le.
  cbn [app] in Le. pose proof (code_lits items id) as Lc. rewrite (NoDup_count_occ Nat.eq_dec) in ND. specialize (ND id).
  assert (G : (0 < occ (literal_nodes items) id)%nat).
  { apply (count_occ_In Nat.eq_dec). unfold literal_nodes. rewrite lits_exprs. apply in_flat_map.
    eexists. split; [apply in_flat_map; eexists; split; [exact Ii|]; cbn [code_exprs]; eapply block_conds; exact Js|]. left. reflexivity. }
  lia.
Qed.
