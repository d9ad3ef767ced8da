(** Proofs about constants and global initialisers. *)
From Coq Require Import ZArith List Bool Lia String ZifyBool.
From Verif Require Import Base BaseFacts F32 Ast Sema SemaSpec SemaFacts.
Import ListNotations.
Open Scope Z_scope.

(** ** What a scope contains *)
Section Scope.
  Context (g : list decl).
  Definition known (d : decl) : Prop :=
    In d g \/ exists v, d = DV v /\ (local_var v \/ arg_var v).
  Definition good_scope (sc : in_scope) : Prop := Forall (Forall known) sc.

  Lemma with_decl_good d sc : known d -> good_scope sc -> good_scope (with_decl d sc).
  Proof.
    intros K. destruct sc as [|s t]; cbn [with_decl]; intros H.
    - constructor; [constructor; [exact K|constructor]|constructor].
    - inversion H; subst. constructor; [constructor; assumption|assumption].
  Qed.
  Lemma after_stmt_good sc s : Forall local_var (decls_stmt s) -> good_scope sc -> good_scope (after_stmt sc s).
  Proof.
    destruct s; cbn [after_stmt decls_stmt]; auto. intros L. inversion L; subst.
    apply with_decl_good. right. eauto.
  Qed.
  Lemma after_block_good b : forall sc, Forall local_var (decls_block b) -> good_scope sc -> good_scope (after_block sc b).
  Proof.
    induction b as [|s b IH]; intros sc L G; [exact G|].
    unfold decls_block in L. cbn [flat_map] in L. apply Forall_app in L. destruct L as [L1 L2].
    change (good_scope (after_block (after_stmt sc s) b)). apply IH; [exact L2|]. apply after_stmt_good; assumption.
  Qed.

  Lemma uses_expr_scope e : forall sc u, In u (uses_expr sc e) -> snd u = sc.
  Proof.
    induction e using rexpr_nested; intros sc u I; cbn [uses_expr In] in I;
      try (now destruct I as [<-|[]]); try contradiction.
    - apply in_flat_map in I. destruct I as (x & I1 & I2). rewrite Forall_forall in H. eauto.
    - apply in_app_iff in I. destruct I; eauto.
    - apply in_app_iff in I. destruct I as [I|I]; [|eauto]. apply in_flat_map in I. destruct I as (x & I1 & I2). rewrite Forall_forall in H. eauto.
    - apply in_app_iff in I. destruct I; eauto.
    - eauto.
  Qed.
  Lemma uses_expr_good sc e : good_scope sc -> Forall (fun u => good_scope (snd u)) (uses_expr sc e).
  Proof. intros G. apply Forall_forall. intros u I. rewrite (uses_expr_scope _ _ _ I). exact G. Qed.
  Lemma uses_opt_good sc o : good_scope sc -> Forall (fun u => good_scope (snd u)) (uses_opt sc o).
  Proof. destruct o; cbn [uses_opt]; [apply uses_expr_good|constructor]. Qed.
  Lemma uses_exprs_good sc es : good_scope sc -> Forall (fun u => good_scope (snd u)) (flat_map (uses_expr sc) es).
  Proof. intros G. apply Forall_flat. apply Forall_forall. intros e _. apply uses_expr_good. exact G. Qed.

  Definition scope_good (s : rstmt) : Prop := forall sc, good_scope sc -> Forall local_var (decls_stmt s) ->
    Forall (fun u => good_scope (snd u)) (uses_stmt sc s).
  Lemma uses_block_good b : Forall scope_good b -> forall sc, good_scope sc -> Forall local_var (decls_block b) ->
    Forall (fun u => good_scope (snd u)) (uses_block sc b).
  Proof.
    induction 1 as [|s b Hs Hb IH]; intros sc G L; [constructor|].
    unfold decls_block in L. cbn [flat_map] in L. apply Forall_app in L. destruct L as [L1 L2].
    unfold uses_block. cbn [in_order]. apply Forall_app. split; [apply Hs; assumption|].
    apply IH; [apply after_stmt_good; assumption|exact L2].
  Qed.
  Lemma uses_stmt_good s : scope_good s.
  Proof.
    assert (N : forall sc, good_scope sc -> good_scope ([] :: sc)) by (intros; constructor; [constructor|assumption]).
    assert (One : forall sc d, good_scope sc -> Forall (fun u : use => good_scope (snd u)) [(d, sc)])
      by (intros; constructor; [assumption|constructor]).
    induction s using rstmt_nested; intros sc G L; cbn [uses_stmt decls_stmt] in *;
      repeat (apply Forall_app; split); auto using uses_expr_good, uses_opt_good, uses_exprs_good.
    - destruct t; [|constructor]. apply Forall_app in L. destruct L. apply uses_block_good; auto.
    - destruct f; [|constructor]. apply Forall_app in L. destruct L. apply uses_block_good; auto.
      destruct t; auto. apply after_block_good; auto.
    - destruct b; [|constructor]. apply uses_block_good; auto.
    - constructor; [apply N; assumption|].
      repeat (apply Forall_app; split); auto using uses_expr_good. apply uses_block_good; auto.
  Qed.
End Scope.

Lemma uses_good items : Forall item_ok items ->
  Forall (fun u => good_scope (top_decls items) (snd u)) (uses items).
Proof.
  intros H. unfold uses. apply Forall_flat. eapply Forall_impl; [|exact H]. cbv beta. intros i Hi.
  assert (G : good_scope (top_decls items) [top_decls items]).
  { constructor; [|constructor]. apply Forall_forall. intros d I. left. exact I. }
  destruct i as [f|d oe|f args body lend]; cbn [uses_item].
  - constructor.
  - apply uses_opt_good. exact G.
  - destruct Hi as (_ & _ & _ & A & L & _). apply uses_block_good; [|constructor; [|exact G]|exact L].
    + apply Forall_forall. intros s _. apply uses_stmt_good.
    + apply Forall_forall. intros d I. apply in_rev in I. apply in_map_iff in I. destruct I as (v & <- & I).
      right. exists v. split; [reflexivity|]. right. rewrite Forall_forall in A. auto.
Qed.

(** Functions and constants in use are declared at the top level. *)
Definition settled (g : list decl) (d : decl) : Prop :=
  match d with DF _ => In d g | DV v => vd_const v = true -> In d g end.

Lemma uses_settled items : Forall item_ok items -> Forall innermost (uses items) ->
  Forall (fun u => settled (top_decls items) (fst u)) (uses items).
Proof.
  intros H1 H2. apply uses_good in H1. apply Forall_forall. intros [d sc] I.
  rewrite Forall_forall in H1, H2. specialize (H1 _ I). destruct (H2 _ I) as (inner & level & outer & -> & I2 & _).
  cbn [fst snd] in *. unfold good_scope in H1. rewrite Forall_forall in H1.
  specialize (H1 level). rewrite in_app_iff in H1. specialize (H1 (or_intror (or_introl eq_refl))).
  rewrite Forall_forall in H1. destruct (H1 _ I2) as [K|(v & -> & K)].
  - destruct d; cbn [settled]; auto.
  - cbn [settled]. destruct K as [[_ K]|[_ K]]; congruence.
Qed.

(** ** Looking up a global *)
Lemma global_expr_some items id e : global_expr items id = Some e ->
  exists d, In (RGlobal d (Some e)) items /\ vd_id d = id.
Proof.
  induction items as [|i t IH]; cbn [global_expr]; [discriminate|].
  destruct i as [f|d oe|f args body lend]; intros E.
  - destruct (IH E) as (d & I & N). exists d. cbn [In]. auto.
  - destruct (Nat.eqb_spec (vd_id d) id).
    + subst. exists d. cbn [In]. auto.
    + destruct (IH E) as (d' & I & N). exists d'. cbn [In]. auto.
  - destruct (IH E) as (d & I & N). exists d. cbn [In]. auto.
Qed.
Lemma NoDup_id {A B} (f : A -> B) l a b : NoDup (map f l) -> In a l -> In b l -> f a = f b -> a = b.
Proof.
  induction l as [|x l IH]; cbn [map]; [intros _ []|]. intros H [<-|I] [<-|J] E; inversion H; subst; auto.
  - exfalso. apply H2. rewrite E. apply in_map. exact J.
  - exfalso. apply H2. rewrite <- E. apply in_map. exact I.
Qed.
Lemma in_top items i : In i items -> In (top_decl i) (top_decls items).
Proof. apply in_map. Qed.
Lemma global_expr_in items d e : NoDup (map decl_id (top_decls items)) ->
  In (RGlobal d e) items -> global_expr items (vd_id d) = e.
Proof.
  induction items as [|i t IH]; cbn [global_expr]; [intros _ []|]. intros N [->|I].
  - rewrite Nat.eqb_refl. reflexivity.
  - cbn [top_decls map] in N. inversion N; subst. specialize (IH H2 I).
    destruct i as [f|d' oe|f args body lend]; auto.
    destruct (Nat.eqb_spec (vd_id d') (vd_id d)); [|exact IH].
    exfalso. apply H1. cbn [top_decl decl_id]. rewrite e0. apply (in_map decl_id _ (DV d)). apply (in_top _ _ I).
Qed.
Lemma global_expr_of items d e : NoDup (map decl_id (top_decls items)) -> In (DV d) (top_decls items) ->
  global_expr items (vd_id d) = Some e -> In (RGlobal d (Some e)) items.
Proof.
  intros N I E. destruct (global_expr_some _ _ _ E) as (d' & I' & Eq).
  pose proof (in_top _ _ I') as I2. cbn [top_decl] in I2.
  assert (DV d' = DV d) as X by (apply (NoDup_id decl_id _ _ _ N I2 I); exact Eq).
  inversion X; subst. exact I'.
Qed.

(** ** eval_t *)
Lemma chk32_ok z v : chk32 z = Ok v -> v = z /\ in_i32 z = true.
Proof. unfold chk32. destruct (in_i32 z) eqn:R; intros E; inversion E; auto. Qed.
Lemma fold_bin_arith o x y v : fold_bin o x y = Ok v -> arith o x y v.
Proof.
  unfold fold_bin, arith, zb. destruct o; intros E;
    try (apply chk32_ok in E; destruct E; subst; auto; fail);
    try (destruct (y =? 0) eqn:Z; [discriminate|]);
    try (inversion E; subst;
         match goal with |- context [if ?b then 1 else 0] => destruct b eqn:Q end; lia).
  - apply chk32_ok in E. destruct E; subst. split; [lia|auto].
  - inv_bind E. apply chk32_ok in E0. destruct E0; subst. inversion E; subst. split; [lia|auto].
Qed.

Section Eval.
  Context (items : list ritem).
  Hypothesis NDI : NoDup (map decl_id (top_decls items)).
  Lemma ev_value e : ev_supported e = true -> forall sc,
    Forall (fun u => settled (top_decls items) (fst u)) (uses_expr sc e) ->
    forall vs ok vs', ev items e (vs, ok) = Ok (vs', true) ->
    ok = true /\ exists v, vs' = v :: vs /\ const_value (int_const items) e v.
  Proof.
    induction e using rexpr_nested; intros S sc U vs ok vs' E; cbn [ev_supported] in S; try discriminate S; cbn [ev] in E.
    - inversion E; subst. split; [reflexivity|]. eexists. split; [reflexivity|constructor].
    - destruct x as [d|]; [|discriminate]. cbn [uses_expr] in U. inversion U; subst. cbn [settled fst] in H1.
      destruct (vd_const d) eqn:C; [|discriminate].
      destruct (global_expr items (vd_id d)) as [[]|] eqn:GE; try discriminate. inversion E; subst.
      split; [reflexivity|]. eexists. split; [reflexivity|]. constructor; [exact C|]. exists id, l0.
      apply global_expr_of; auto.
    - cbn [uses_expr] in U. apply Forall_app in U. destruct U as [U1 U2].
      destruct (ev_supported e1) eqn:S1; [|discriminate]. destruct (ev_supported e2) eqn:S2; [|discriminate].
      cbn [andb] in E. inv_bind E. destruct a as [vs1 ok1]. inv_bind E. destruct a as [vs2 ok2].
      destruct ok2; cbn [negb] in E; [|inversion E].
      destruct (IHe2 eq_refl sc U2 _ _ _ E1) as (-> & y & -> & V2).
      destruct (IHe1 eq_refl sc U1 _ _ _ E0) as (-> & x & -> & V1).
      destruct ((y =? 0) && is_div o); [discriminate|]. inv_bind E. inversion E; subst.
      split; [reflexivity|]. eexists. split; [reflexivity|]. econstructor; [eassumption..|]. apply fold_bin_arith. exact E2.
    - cbn [uses_expr] in U.
      destruct (ev_supported e) eqn:S1; [|discriminate]. inv_bind E. destruct a as [vs1 ok1].
      destruct vs1 as [|v vs2]; [discriminate|]. destruct o; [|discriminate]. inv_bind E. inversion E; subst.
      destruct (IHe eq_refl sc U _ _ _ E0) as (-> & x & X & V). inversion X; subst. apply chk32_ok in E1. destruct E1; subst.
      split; [reflexivity|]. eexists. split; [reflexivity|]. constructor; assumption.
  Qed.
End Eval.

(** ** sema_global_var_t *)
Lemma const_value_mono (l1 l2 : vdecl -> Z -> Prop) : (forall d v, l1 d v -> l2 d v) ->
  forall e v, const_value l1 e v -> const_value l2 e v.
Proof. intros H e v. induction 1; econstructor; eauto. Qed.
Lemma folded_mono (l1 l2 : vdecl -> Z -> Prop) : (forall d v, l1 d v -> l2 d v) ->
  forall i j, folded l1 i j -> folded l2 i j.
Proof. intros H i j. destruct 1; constructor; eauto using const_value_mono. Qed.

(** Folding twice is folding once. *)
Lemma folded_trans l i j k : folded l i j -> folded l j k -> folded l i k.
Proof.
  intros A B. inversion B; subst; [exact A| |].
  - inversion A; subst. constructor.
  - inversion A; subst; [exact B|].
    match goal with X : const_value _ (RInt _ _ _) _ |- _ => inversion X; subst end. constructor. assumption.
Qed.
Lemma folded_top l i j : folded l i j -> top_decl j = top_decl i.
Proof. destruct 1; reflexivity. Qed.
Lemma folded_uses l g i j P : folded l i j -> Forall P (uses_item g i) -> Forall P (uses_item g j).
Proof. destruct 1; cbn [uses_item uses_opt]; auto; constructor. Qed.
Lemma folded_tops l is js : Forall2 (folded l) is js -> top_decls js = top_decls is.
Proof.
  unfold top_decls. induction 1 as [|? ? ? ? F]; cbn [map]; [reflexivity|].
  rewrite (folded_top _ _ _ F). congruence.
Qed.
Lemma folded_all_uses l g is js P : Forall2 (folded l) is js ->
  Forall P (flat_map (uses_item g) is) -> Forall P (flat_map (uses_item g) js).
Proof.
  induction 1 as [|? ? ? ? F]; cbn [flat_map]; [auto|]. rewrite !Forall_app. intros []. split; [eapply folded_uses; eassumption|auto].
Qed.
Lemma folded_int l is js d v : Forall2 (folded l) is js -> int_const is d v -> int_const js d v.
Proof.
  intros F (i & ln & I). unfold int_const. induction F as [|x y is js F FF IH]; [destruct I|].
  destruct I as [->|I].
  - inversion F; subst; [exists i, ln; left; reflexivity|].
    match goal with X : const_value _ (RInt _ _ _) _ |- _ => inversion X; subst end. exists i0, None. left. reflexivity.
  - destruct (IH I) as (i' & l' & I'). exists i', l'. right. exact I'.
Qed.
Lemma Forall2_refl {A} (R : A -> A -> Prop) l : (forall a, R a a) -> Forall2 R l l.
Proof. intros H. induction l; constructor; auto. Qed.
Lemma Forall2_trans {A} (R : A -> A -> Prop) l1 l2 l3 : (forall a b c, R a b -> R b c -> R a c) ->
  Forall2 R l1 l2 -> Forall2 R l2 l3 -> Forall2 R l1 l3.
Proof. intros H F. revert l3. induction F; intros l3 G; inversion G; subst; constructor; eauto. Qed.
Lemma Forall2_impl {A B} (R S : A -> B -> Prop) l1 l2 : (forall a b, R a b -> S a b) -> Forall2 R l1 l2 -> Forall2 S l1 l2.
Proof. intros H F. induction F; constructor; auto. Qed.

Definition consts_known (items : list ritem) : Prop :=
  NoDup (map decl_id (top_decls items)) /\
  Forall (fun u => settled (top_decls items) (fst u)) (uses items).

Lemma consts_known_folded l is js : Forall2 (folded l) is js -> consts_known is -> consts_known js.
Proof.
  intros F [N U]. unfold consts_known, uses. rewrite (folded_tops _ _ _ F). split; [exact N|].
  eapply folded_all_uses; eassumption.
Qed.

Lemma glob_expr_folded items d e n e' ch n' : consts_known items -> In (RGlobal d (Some e)) items ->
  glob_expr items e n = Ok (e', ch, n') ->
  folded (int_const items) (RGlobal d (Some e)) (RGlobal d e') /\ (n <= n')%nat.
Proof.
  intros [N U] I E.
  assert (Ue : Forall (fun u => settled (top_decls items) (fst u)) (uses_expr [top_decls items] e)).
  { unfold uses in U. rewrite Forall_flat, Forall_forall in U. apply (U _ I). }
  assert (Hev : forall v, ev_supported e = true -> eval items e = Ok (Some v) -> const_value (int_const items) e v).
  { intros v S H. unfold eval in H. inv_bind H. destruct a as [vs ok].
    destruct vs as [|w [|]]; try discriminate. destruct ok; [|discriminate]. inversion H; subst.
    destruct (ev_value items N e S _ Ue _ _ _ E0) as (_ & x & X & V). inversion X; subst. exact V. }
  destruct e; cbn [glob_expr] in E; try (inversion E; subst; split; [constructor|lia]).
  - inv_bind E. destruct a; inversion E; subst; (split; [|lia]); constructor. apply Hev; [reflexivity|assumption].
  - inv_bind E. destruct a; inversion E; subst; (split; [|lia]); constructor. apply Hev; [reflexivity|assumption].
Qed.

Lemma run_globals_folded todo : forall done ch n js ch' n', consts_known (done ++ todo) ->
  run_globals done todo ch n = Ok (js, ch', n') ->
  Forall2 (folded (int_const js)) (done ++ todo) js /\ (n <= n')%nat.
Proof.
  induction todo as [|i t IH]; intros done ch n js ch' n' K E; cbn [run_globals] in E.
  - inversion E; subst. rewrite app_nil_r. split; [|lia]. apply Forall2_refl. constructor.
  - assert (Same : (run_globals (done ++ [i]) t ch n = Ok (js, ch', n') ->
        Forall2 (folded (int_const js)) (done ++ i :: t) js /\ (n <= n')%nat)).
    { intros E'. specialize (IH (done ++ [i])). rewrite <- app_assoc in IH. eapply IH; eassumption. }
    destruct i as [f|d [e|]|f args body lend]; auto. clear Same.
    inv_bind E. destruct a as [[e' ch1] n1].
    destruct (glob_expr_folded _ d _ _ _ _ _ K ltac:(apply in_app_iff; right; left; reflexivity) E0) as [F Le].
    set (cur := done ++ RGlobal d (Some e) :: t) in *.
    assert (FF : Forall2 (folded (int_const cur)) cur (done ++ RGlobal d e' :: t)).
    { apply Forall2_app; [apply Forall2_refl; constructor|]. constructor; [exact F|apply Forall2_refl; constructor]. }
    specialize (IH (done ++ [RGlobal d e'])). rewrite <- app_assoc in IH.
    edestruct IH as [G Le2]; [eapply consts_known_folded; eassumption|exact E|].
    split; [|lia]. eapply Forall2_trans; [apply folded_trans| |exact G].
    eapply Forall2_impl; [|exact FF]. apply folded_mono. intros d0 v0 H.
    eapply folded_int; [exact G|]. eapply folded_int; [exact FF|exact H].
Qed.
Lemma glob_loop_folded fuel : forall items n js n', consts_known items ->
  glob_loop fuel items n = Ok (js, n') -> Forall2 (folded (int_const js)) items js /\ (n <= n')%nat.
Proof.
  induction fuel as [|f IH]; intros items n js n' K E; cbn [glob_loop] in E; [discriminate|].
  inv_bind E. destruct a as [[items' ch] n1].
  destruct (run_globals_folded items [] _ _ _ _ _ K E0) as [F Le]. cbn [app] in F.
  destruct ch; [|inversion E; subst; split; [exact F|exact Le]].
  destruct (IH _ _ _ _ (consts_known_folded _ _ _ F K) E) as [G Le2]. split; [|lia].
  eapply Forall2_trans; [apply folded_trans| |exact G].
  eapply Forall2_impl; [|exact F]. apply folded_mono. intros d0 v0 H. eapply folded_int; [exact G|exact H].
Qed.
Lemma global_vars_folded items n js n' : consts_known items -> global_vars items n = Ok (js, n') ->
  Forall2 (folded (int_const js)) items js /\ (n <= n')%nat.
Proof.
  intros K E. unfold global_vars in E. inv_bind E. destruct a as [i1 n1]. inv_bind E. destruct a as [[i2 ch] n2].
  inversion E; subst.
  destruct (glob_loop_folded _ _ _ _ _ K E0) as [F L1].
  destruct (run_globals_folded i1 [] _ _ _ _ _ (consts_known_folded _ _ _ F K) E1) as [G L2]. cbn [app] in G.
  split; [|lia]. eapply Forall2_trans; [apply folded_trans| |exact G].
  eapply Forall2_impl; [|exact F]. apply folded_mono. intros d0 v0 H. eapply folded_int; [exact G|exact H].
Qed.

(** ** sema_const_t *)
Section Const.
  Context (cur : list ritem) (lit : vdecl -> rexpr -> Prop).
  Context (g : list decl).
  (** what [const_lit] yields for the constants in use *)
  Hypothesis Hlit : forall d l o, vd_const d = true -> In (DV d) g ->
    const_lit cur (DV d) l = Ok o -> exists e, o = Some e /\ lit d e.
  Hypothesis Hliteral : forall d e, lit d e -> literal e.

  Definition con_good (e : rexpr) : Prop := forall sc e',
    Forall (fun u => settled g (fst u)) (uses_expr sc e) -> con_expr cur e = Ok e' ->
    inlined lit e e' /\ forall (P : use -> Prop), Forall P (uses_expr sc e) -> Forall P (uses_expr sc e').

  Lemma literal_uses sc e : literal e -> uses_expr sc e = [].
  Proof. destruct e; cbn [literal]; intros []; reflexivity. Qed.

  Lemma con_exprs es : Forall con_good es -> forall sc es',
    Forall (fun u => settled g (fst u)) (flat_map (uses_expr sc) es) -> each_ (con_expr cur) es = Ok es' ->
    Forall2 (inlined lit) es es' /\
    forall (P : use -> Prop), Forall P (flat_map (uses_expr sc) es) -> Forall P (flat_map (uses_expr sc) es').
  Proof.
    induction 1 as [|e es He Hes IH]; intros sc es' U E; cbn [each_] in E.
    - inversion E; subst. split; [constructor|auto].
    - inv_bind E. inv_bind E. inversion E; subst. cbn [flat_map] in *. apply Forall_app in U. destruct U as [U1 U2].
      destruct (He _ _ U1 E0) as [A1 A2]. destruct (IH _ _ U2 E1) as [B1 B2].
      split; [constructor; assumption|]. intros P X. apply Forall_app in X. destruct X. apply Forall_app. auto.
  Qed.

  Lemma con_ident d l sc : Forall (fun u => settled g (fst u)) (uses_expr sc (RIdent d l)) ->
    forall e', con_expr cur (RIdent d l) = Ok e' ->
    (e' = RIdent d l /\ match d with DV v => vd_const v = false | _ => True end) \/
    (exists v, d = DV v /\ vd_const v = true /\ lit v e').
  Proof.
    cbn [uses_expr]. intros U e' E. inversion U; subst. cbn [fst] in H1. cbn [con_expr] in E.
    destruct d as [v|f]; cbn [const_lit] in E.
    - destruct (vd_const v) eqn:C.
      + cbn [negb] in E. inv_bind E.
        assert (E1 : const_lit cur (DV v) l = Ok a) by (cbn [const_lit]; rewrite C; exact E0).
        destruct (Hlit _ _ _ C (H1 C) E1) as (e & -> & L). inversion E; subst. right. eauto.
      + cbn [negb bind] in E. inversion E; subst. auto.
    - cbn [bind] in E. inversion E; subst. auto.
  Qed.

  Lemma con_expr_good e : con_good e.
  Proof.
    induction e using rexpr_nested; intros sc e' U E.
    - cbn [con_expr] in E. inversion E; subst. split; [constructor|auto].
    - cbn [con_expr] in E. inversion E; subst. split; [constructor|auto].
    - cbn [con_expr] in E. inversion E; subst. split; [constructor|auto].
    - cbn [con_expr] in E. inversion E; subst. split; [constructor|auto].
    - destruct (con_ident _ _ _ U _ E) as [(-> & D)|(v & -> & C & L)].
      + split; [|auto]. destruct x; [apply IN_var; assumption|apply IN_func].
      + split; [constructor; assumption|]. intros P _. rewrite (literal_uses _ _ (Hliteral _ _ L)). constructor.
    - cbn [con_expr] in E. inversion E; subst. split; [constructor|auto].
    - cbn [con_expr] in E. inv_bind E. inversion E; subst. cbn [uses_expr] in *.
      destruct (con_exprs _ H _ _ U E0). split; [constructor; assumption|assumption].
    - cbn [con_expr] in E. inv_bind E. inv_bind E. inversion E; subst. cbn [uses_expr] in *.
      apply Forall_app in U. destruct U as [U1 U2].
      destruct (IHe1 _ _ U1 E0), (IHe2 _ _ U2 E1). split; [constructor; assumption|].
      intros P X. apply Forall_app in X. destruct X. apply Forall_app. auto.
    - cbn [con_expr] in E. inv_bind E. cbn [uses_expr] in *.
      apply Forall_app in U. destruct U as [U1 U2].
      destruct (con_exprs _ H _ _ U1 E0) as [A B].
      destruct e; try (inv_bind E; inversion E; subst; destruct (IHe _ _ U2 E1) as [C D];
        (split; [apply IN_call; [congruence|assumption|assumption]|]);
        intros P X; cbn [uses_expr] in *; apply Forall_app in X; destruct X; apply Forall_app; split; [apply B; assumption|apply D; assumption]).
      inv_bind E. inversion E; subst. split; [constructor; assumption|].
      intros P X. cbn [uses_expr] in *. apply Forall_app in X. destruct X. apply Forall_app. auto.
    - cbn [con_expr] in E. inv_bind E. inv_bind E. inversion E; subst. cbn [uses_expr] in *.
      apply Forall_app in U. destruct U as [U1 U2].
      destruct (IHe1 _ _ U1 E0), (IHe2 _ _ U2 E1). split; [constructor; assumption|].
      intros P X. apply Forall_app in X. destruct X. apply Forall_app. auto.
    - cbn [con_expr] in E. inv_bind E. inversion E; subst. cbn [uses_expr] in *.
      destruct (IHe _ _ U E0). split; [constructor; assumption|assumption].
  Qed.
  Lemma con_opt_good sc o o' :
    Forall (fun u => settled g (fst u)) (uses_opt sc o) -> con_opt cur o = Ok o' ->
    inlined_opt lit o o' /\ forall (P : use -> Prop), Forall P (uses_opt sc o) -> Forall P (uses_opt sc o').
  Proof.
    destruct o; cbn [con_opt]; intros U E.
    - inv_bind E. inversion E; subst. destruct (con_expr_good _ _ _ U E0). split; [constructor; assumption|assumption].
    - inversion E; subst. split; [constructor|auto].
  Qed.

  Definition con_stmt_ok (s : rstmt) : Prop := forall sc s',
    Forall (fun u => settled g (fst u)) (uses_stmt sc s) -> con_stmt cur s = Ok s' ->
    inlined_stmt lit s s' /\ after_stmt sc s' = after_stmt sc s /\
    forall (P : use -> Prop), Forall P (uses_stmt sc s) -> Forall P (uses_stmt sc s').
  Lemma con_block_good b : Forall con_stmt_ok b -> forall sc b',
    Forall (fun u => settled g (fst u)) (uses_block sc b) -> each_ (con_stmt cur) b = Ok b' ->
    inlined_block lit b b' /\ after_block sc b' = after_block sc b /\
    forall (P : use -> Prop), Forall P (uses_block sc b) -> Forall P (uses_block sc b').
  Proof.
    induction 1 as [|s b Hs Hb IH]; intros sc b' U E; cbn [each_] in E.
    - inversion E; subst. split; [constructor|auto].
    - inv_bind E. inv_bind E. inversion E; subst. unfold uses_block in *. cbn [in_order] in *.
      apply Forall_app in U. destruct U as [U1 U2].
      destruct (Hs _ _ U1 E0) as (A1 & A2 & A3). destruct (IH _ _ U2 E1) as (B1 & B2 & B3).
      split; [constructor; assumption|]. split.
      + unfold after_block in *. cbn [fold_left]. rewrite A2. exact B2.
      + intros P X. apply Forall_app in X. destruct X. apply Forall_app. rewrite A2. auto.
  Qed.
  Lemma con_oblock_good o : oall con_stmt_ok o -> forall sc o',
    Forall (fun u => settled g (fst u)) (match o with Some b => in_order uses_stmt sc b | None => [] end) ->
    match o with None => Ok None | Some b => r <- each_ (con_stmt cur) b ;; Ok (Some r) end = Ok o' ->
    inlined_oblock lit o o' /\
    match o' with Some b => after_block sc b | None => sc end = match o with Some b => after_block sc b | None => sc end /\
    forall (P : use -> Prop), Forall P (match o with Some b => in_order uses_stmt sc b | None => [] end) ->
      Forall P (match o' with Some b => in_order uses_stmt sc b | None => [] end).
  Proof.
    destruct o as [b|]; cbn [oall]; intros H sc o' U E.
    - inv_bind E. inversion E; subst. destruct (con_block_good _ H _ _ U E0) as (A & B & C).
      split; [constructor; exact A|]. split; [exact B|exact C].
    - inversion E; subst. split; [constructor|auto].
  Qed.

  Lemma con_stmt_good s : con_stmt_ok s.
  Proof.
    induction s using rstmt_nested; intros sc s' U E; cbn [con_stmt] in E; cbn [uses_stmt] in U.
    - inv_bind E. inversion E; subst. destruct (con_opt_good _ _ _ U E0).
      split; [constructor; assumption|]. split; [reflexivity|assumption].
    - destruct (vd_const d) eqn:C; [discriminate|]. inv_bind E. inversion E; subst.
      apply Forall_app in U. destruct U as [U1 U2]. destruct (con_expr_good _ _ _ U1 E0).
      split; [constructor; assumption|]. split; [reflexivity|].
      intros P X. cbn [uses_stmt] in *. apply Forall_app in X. destruct X. apply Forall_app. auto.
    - inv_bind E. inversion E; subst.
      apply Forall_app in U. destruct U as [U1 U2]. destruct (con_expr_good _ _ _ U1 E0).
      split; [constructor; assumption|]. split; [reflexivity|].
      intros P X. cbn [uses_stmt] in *. apply Forall_app in X. destruct X. apply Forall_app. auto.
    - inv_bind E. inv_bind E. inversion E; subst.
      apply Forall_app in U. destruct U as [U1 U2]. apply Forall_app in U2. destruct U2 as [U2 U3].
      destruct (con_expr_good _ _ _ U1 E0), (con_expr_good _ _ _ U2 E1).
      split; [constructor; assumption|]. split; [reflexivity|].
      intros P X. cbn [uses_stmt] in *. rewrite !Forall_app in *. destruct X as (? & ? & ?). auto.
    - unfold con_call in E. inv_bind E. destruct a as [rf rs]. inv_bind E0. inversion E; subst.
      destruct (con_expr_good (RCall l f es) _ _ U E1) as [A B]. destruct a; try discriminate. inversion E0; subst.
      split; [constructor|].
      + inversion A; subst; assumption.
      + split; [reflexivity|]. exact B.
    - inv_bind E. inv_bind E. inv_bind E. inversion E; subst.
      apply Forall_app in U. destruct U as [U1 U2]. apply Forall_app in U2. destruct U2 as [U2 U3].
      destruct (con_expr_good _ _ _ U1 E0).
      destruct (con_oblock_good _ H _ _ U2 E1) as (A1 & A2 & A3).
      destruct (con_oblock_good _ H0 _ _ U3 E2) as (B1 & B2 & B3).
      split; [constructor; assumption|]. split; [reflexivity|].
      intros P X. cbn [uses_stmt] in *. rewrite !Forall_app in *. destruct X as (? & ? & ?). rewrite A2. auto.
    - inv_bind E. inv_bind E. inversion E; subst.
      apply Forall_app in U. destruct U as [U1 U2].
      destruct (con_expr_good _ _ _ U1 E0).
      destruct (con_oblock_good _ H _ _ U2 E1) as (A1 & A2 & A3).
      split; [constructor; assumption|]. split; [reflexivity|].
      intros P X. cbn [uses_stmt] in *. rewrite !Forall_app in *. destruct X as (? & ?). auto.
    - inv_bind E. inv_bind E. inv_bind E. inversion E; subst. inversion U as [|? ? U0 U']; subst.
      apply Forall_app in U'. destruct U' as [U1 U2]. apply Forall_app in U2. destruct U2 as [U2 U3].
      destruct (con_expr_good _ _ _ U1 E0), (con_expr_good _ _ _ U2 E1).
      destruct (con_block_good _ H _ _ U3 E2) as (A1 & A2 & A3).
      split; [constructor; assumption|]. split; [reflexivity|].
      intros P X. cbn [uses_stmt] in *. rewrite !Forall_cons_iff, !Forall_app in *. destruct X as (? & ? & ? & ?). auto.
    - inv_bind E. inversion E; subst. destruct (con_opt_good _ _ _ U E0).
      split; [constructor; assumption|]. split; [reflexivity|assumption].
  Qed.
  Lemma con_body_good sc b b' :
    Forall (fun u => settled g (fst u)) (uses_block sc b) -> each_ (con_stmt cur) b = Ok b' ->
    inlined_block lit b b' /\ after_block sc b' = after_block sc b /\
    forall (P : use -> Prop), Forall P (uses_block sc b) -> Forall P (uses_block sc b').
  Proof. apply con_block_good. apply Forall_forall. intros s _. apply con_stmt_good. Qed.

  Lemma con_item_good i i' :
    Forall (fun u => settled g (fst u)) (uses_item g i) -> con_item cur i = Ok i' ->
    inlined_item lit i i' /\ top_decl i' = top_decl i /\
    (forall d, i' = RGlobal d None -> vd_const d = false) /\
    forall (P : use -> Prop), Forall P (uses_item g i) -> Forall P (uses_item g i').
  Proof.
    destruct i as [f|d oe|f args body lend]; cbn [con_item uses_item]; intros U E.
    - inversion E; subst. split; [constructor|]. split; [reflexivity|]. split; [congruence|auto].
    - inv_bind E. destruct (con_opt_good _ _ _ U E0) as [A B]. destruct a as [r|].
      + inversion E; subst. split; [constructor; assumption|]. split; [reflexivity|]. split; [congruence|exact B].
      + destruct (vd_const d) eqn:C; inversion E; subst.
        split; [constructor; assumption|]. split; [reflexivity|]. split; [|exact B].
        intros d' X. inversion X; subst. exact C.
    - inv_bind E. inversion E; subst. destruct (con_body_good _ _ _ U E0) as (A & B & C).
      split; [constructor; assumption|]. split; [reflexivity|]. split; [congruence|exact C].
  Qed.
End Const.

Lemma con_items_some todo : forall done fin d, con_items done todo = Ok fin ->
  In (RGlobal d None) todo -> vd_const d = false.
Proof.
  induction todo as [|i t IH]; intros done fin d E; [intros []|]. cbn [con_items] in E. inv_bind E.
  intros [->|I]; [|eauto]. cbn [con_item con_opt bind] in E0. destruct (vd_const d); [discriminate|reflexivity].
Qed.
Lemma literal_con cur e : literal e -> con_expr cur e = Ok e.
Proof. destruct e; cbn [literal]; intros []; reflexivity. Qed.
Lemma con_items_keeps todo : forall done fin d e, con_items done todo = Ok fin -> literal e ->
  In (RGlobal d (Some e)) (done ++ todo) -> In (RGlobal d (Some e)) fin.
Proof.
  induction todo as [|i t IH]; intros done fin d e E L I; cbn [con_items] in E.
  - rewrite app_nil_r in I. inversion E; subst. exact I.
  - inv_bind E. eapply IH; [exact E|exact L|]. rewrite <- app_assoc. cbn [app].
    apply in_app_iff in I. apply in_app_iff. destruct I as [I|[->|I]]; [auto| |right; right; exact I].
    cbn [con_item con_opt] in E0. rewrite (literal_con _ _ L) in E0. cbn [bind] in E0. inversion E0; subst.
    right. left. reflexivity.
Qed.

Lemma con_items_inv todo : forall done fin, consts_known (done ++ todo) ->
  (forall d, In (RGlobal d None) done -> vd_const d = false) ->
  con_items done todo = Ok fin ->
  exists todo', fin = done ++ todo' /\ Forall2 (inlined_item (stands_for fin)) todo todo' /\
    top_decls todo' = top_decls todo /\
    (forall d, In (RGlobal d None) fin -> vd_const d = false) /\
    forall P : use -> Prop, Forall P (flat_map (uses_item (top_decls (done ++ todo))) todo) ->
      Forall P (flat_map (uses_item (top_decls (done ++ todo))) todo').
Proof.
  induction todo as [|i t IH]; intros done fin K D E.
  - cbn [con_items] in E. inversion E; subst. exists []. rewrite app_nil_r.
    split; [reflexivity|]. split; [constructor|]. auto.
  - pose proof (fun d => con_items_some (i :: t) done fin d E) as Hsome.
    pose proof (fun d e => con_items_keeps (i :: t) done fin d e E) as Hkeep.
    cbn [con_items] in E. inv_bind E. set (cur := done ++ i :: t) in *. destruct K as [ND U].
    assert (Hlit : forall d l o, vd_const d = true -> In (DV d) (top_decls cur) ->
      const_lit cur (DV d) l = Ok o -> exists e, o = Some e /\ stands_for fin d e).
    { intros d l o C I H. cbn [const_lit] in H. rewrite C in H. cbn [negb] in H.
      apply in_map_iff in I. destruct I as (j & J & I). destruct j as [|d' oe|]; try discriminate. inversion J; subst d'.
      rewrite (global_expr_in _ _ _ ND I) in H. destruct oe as [e|].
      - assert (X : literal e -> exists e0, Some e = Some e0 /\ stands_for fin d e0).
        { intros L. exists e. split; [reflexivity|]. split; [exact L|]. apply Hkeep; assumption. }
        destruct e; try discriminate; inversion H; subst; apply X; exact Logic.I.
      - exfalso. apply in_app_iff in I. destruct I as [I|I]; [apply D in I|apply Hsome in I]; congruence. }
    assert (Hl2 : forall d e, stands_for fin d e -> literal e) by (intros d e []; assumption).
    assert (Ui : Forall (fun u => settled (top_decls cur) (fst u)) (uses_item (top_decls cur) i)).
    { unfold uses in U. rewrite Forall_flat, Forall_forall in U. apply (U i). apply in_app_iff. right. left. reflexivity. }
    destruct (con_item_good cur (stands_for fin) (top_decls cur) Hlit Hl2 _ _ Ui E0) as (A1 & A2 & A3 & A4).
    assert (T : top_decls ((done ++ [a]) ++ t) = top_decls cur).
    { unfold cur, top_decls. rewrite <- app_assoc, !map_app. cbn [map app]. rewrite A2. reflexivity. }
    destruct (IH (done ++ [a]) fin) as (t' & -> & B1 & B2 & B3 & B4).
    + split; [rewrite T; exact ND|]. unfold uses. rewrite T, <- app_assoc. unfold cur, uses in U.
      rewrite flat_map_app in *. cbn [flat_map app] in *. rewrite !Forall_app in *.
      destruct U as (U1 & U2 & U3). auto.
    + intros d I. apply in_app_iff in I. destruct I as [I|[I|[]]]; [auto|]. subst. apply A3. reflexivity.
    + exact E.
    + exists (a :: t'). rewrite <- app_assoc in *. cbn [app] in *.
      split; [reflexivity|]. split; [constructor; assumption|].
      split; [unfold top_decls in *; cbn [map]; rewrite A2, B2; reflexivity|]. split; [exact B3|].
      rewrite T in B4. intros P X. cbn [flat_map] in *. rewrite !Forall_app in *. destruct X. split; [apply A4|apply B4]; assumption.
Qed.
Lemma consts_inv items fin : consts_known items -> consts items = Ok fin ->
  Forall2 (inlined_item (stands_for fin)) items fin /\ top_decls fin = top_decls items /\
  (forall d, In (RGlobal d None) fin -> vd_const d = false) /\
  forall P : use -> Prop, Forall P (uses items) -> Forall P (uses fin).
Proof.
  intros K E. destruct (con_items_inv items [] fin K ltac:(intros ? []) E) as (t & -> & A & B & C & D).
  cbn [app] in *. split; [exact A|]. split; [exact B|]. split; [exact C|]. unfold uses. rewrite B. exact D.
Qed.

(** ** After the constants have been put in *)
Section After.
  Context (lit : vdecl -> rexpr -> Prop) (Hliteral : forall d e, lit d e -> literal e).
  Definition not_const (e : rexpr) : Prop := forall d l, e = RIdent (DV d) l -> vd_const d = false.
  Lemma inlined_values e : forall e', inlined lit e e' -> Forall not_const (values_inside e').
  Proof.
    assert (L : forall es, Forall (fun e => forall e', inlined lit e e' -> Forall not_const (values_inside e')) es ->
      forall es', Forall2 (inlined lit) es es' -> Forall not_const (flat_map values_inside es')).
    { intros es H es' F. induction F; cbn [flat_map]; [constructor|]. inversion H; subst. apply Forall_app. auto. }
    assert (NI : forall e, (forall d l, e <> RIdent (DV d) l) -> not_const e) by (intros x H d l ->; destruct (H d l eq_refl)).
    induction e using rexpr_nested; intros e' I; inversion I; subst; cbn [values_inside];
      try (constructor; [apply NI; congruence|]); try (constructor; fail); eauto.
    - match goal with X : lit _ _ |- _ => apply Hliteral in X; rename X into Y end. destruct e'; cbn [literal] in Y; destruct Y; cbn [values_inside];
        (constructor; [apply NI; congruence|constructor]).
    - constructor; [|constructor]. intros d' l' E. inversion E; subst. assumption.
    - apply Forall_app; eauto.
    - apply Forall_app. split; [|eapply L; eassumption]. match goal with X : inlined _ e ?f |- _ => specialize (IHe _ X); destruct f; try exact IHe; constructor end.
    - apply Forall_app; eauto.
  Qed.
  Lemma inlined_opt_values o o' : inlined_opt lit o o' -> Forall not_const (flat_map values_inside (opt_list o')).
  Proof.
    destruct 1; cbn [opt_list flat_map]; [constructor|]. rewrite app_nil_r. eapply inlined_values; eassumption.
  Qed.
  Definition stmt_not_const (s : rstmt) : Prop := forall d l e, s = RAssign d l e -> vd_const d = false.
  Definition after_ok (s' : rstmt) : Prop :=
    Forall not_const (flat_map values_inside (exprs_stmt s')) /\ Forall stmt_not_const (within s').
  Scheme is_m := Minimality for inlined_stmt Sort Prop
    with io_m := Minimality for inlined_opt Sort Prop
    with ib_m := Minimality for inlined_block Sort Prop
    with iob_m := Minimality for inlined_oblock Sort Prop.
  Lemma inlined_block_after b b' : inlined_block lit b b' ->
    Forall not_const (flat_map values_inside (flat_map exprs_stmt b')) /\ Forall stmt_not_const (flat_map within b').
  Proof.
    assert (NI : forall s, (forall d l e, s <> RAssign d l e) -> stmt_not_const s) by (intros x H d l e ->; destruct (H d l e eq_refl)).
    apply (ib_m lit (fun _ s' => after_ok s') (fun o o' => inlined_opt lit o o')
      (fun _ b' => Forall not_const (flat_map values_inside (flat_map exprs_stmt b')) /\ Forall stmt_not_const (flat_map within b'))
      (fun _ o' => Forall not_const (flat_map values_inside (match o' with Some b => flat_map exprs_stmt b | None => [] end)) /\
                   Forall stmt_not_const (match o' with Some b => flat_map within b | None => [] end)));
      try solve [intros; constructor; eassumption]; try solve [constructor; constructor]; try solve [constructor]; unfold after_ok; cbn [exprs_stmt within].
    - intros. split; [eapply inlined_opt_values; eassumption|]. constructor; [apply NI; congruence|constructor].
    - intros. cbn [flat_map]. rewrite app_nil_r. split; [eapply inlined_values; eassumption|].
      constructor; [intros ? ? ? X; inversion X; subst; assumption|constructor].
    - intros. cbn [flat_map]. rewrite app_nil_r. split; [eapply inlined_values; eassumption|]. constructor; [apply NI; congruence|constructor].
    - intros. cbn [flat_map]. rewrite app_nil_r. split; [apply Forall_app; split; eapply inlined_values; eassumption|]. constructor; [apply NI; congruence|constructor].
    - intros. change (flat_map values_inside [RCall l f' es']) with (values_inside (RCall l f' es') ++ []). rewrite app_nil_r.
      split; [eapply inlined_values; eassumption|]. constructor; [apply NI; congruence|constructor].
    - intros l c t f c' t' f' C T [T1 T2] F [F1 F2]. cbn [flat_map]. rewrite flat_map_app, !Forall_app.
      split; [split; [eapply inlined_values; eassumption|auto]|]. constructor; [apply NI; congruence|]. apply Forall_app. auto.
    - intros l c t c' t' C T [T1 T2]. cbn [flat_map]. rewrite !Forall_app.
      split; [split; [eapply inlined_values; eassumption|auto]|]. constructor; [apply NI; congruence|]. auto.
    - intros l d lx a b1 body a' b1' body' A B T [T1 T2]. cbn [flat_map]. rewrite !Forall_app.
      split; [split; [eapply inlined_values; eassumption|split; [eapply inlined_values; eassumption|auto]]|]. constructor; [apply NI; congruence|]. auto.
    - intros. split; [eapply inlined_opt_values; eassumption|]. constructor; [apply NI; congruence|constructor].
    - intros s s' b0 b0' S [S1 S2] B [B1 B2]. cbn [flat_map]. rewrite flat_map_app, !Forall_app. auto.
    - auto.
  Qed.
  Lemma inlined_item_after i i' : inlined_item lit i i' ->
    Forall not_const (flat_map values_inside (exprs_item i')) /\ Forall stmt_not_const (program_stmts [i']).
  Proof.
    destruct 1; cbn [exprs_item program_stmts flat_map]; try rewrite app_nil_r.
    - split; constructor.
    - split; [eapply inlined_opt_values; eassumption|constructor].
    - eapply inlined_block_after; eassumption.
  Qed.
  Lemma inlined_items_after is js : Forall2 (inlined_item lit) is js ->
    Forall not_const (program_values js) /\ Forall stmt_not_const (program_stmts js).
  Proof.
    unfold program_values, program_stmts. induction 1 as [|i j is js H F [IH1 IH2]]; cbn [flat_map]; [split; constructor|].
    apply inlined_item_after in H. unfold program_stmts in H. cbn [flat_map] in H. rewrite app_nil_r in H. destruct H.
    rewrite flat_map_app, !Forall_app. auto.
  Qed.

  (** The declarations stay. *)
  Lemma inlined_block_decls b b' : inlined_block lit b b' -> decls_block b' = decls_block b.
  Proof.
    apply (ib_m lit (fun s s' => decls_stmt s' = decls_stmt s) (fun _ _ => True)
      (fun b b' => decls_block b' = decls_block b)
      (fun o o' => match o' with Some b => flat_map decls_stmt b | None => [] end = match o with Some b => flat_map decls_stmt b | None => [] end));
      intros; cbn [decls_stmt]; unfold decls_block in *; try congruence.
    all: try exact Logic.I. cbn [flat_map]. congruence.
  Qed.
  Lemma inlined_tree is js : Forall2 (inlined_item lit) is js -> tree_ok is -> tree_ok js /\ all_ids js = all_ids is.
  Proof.
    intros F [H1 H2].
    assert (A : Forall item_ok js /\ top_decls js = top_decls is /\ flat_map (fun i => map vd_id (inner_decls i)) js = flat_map (fun i => map vd_id (inner_decls i)) is).
    { clear H2. induction F as [|i j is js H F IH]; [repeat split; constructor|]. inversion H1; subst.
      destruct (IH H4) as (I1 & I2 & I3). unfold top_decls in *. cbn [map flat_map]. rewrite I2, I3.
      assert (B : item_ok j /\ top_decl j = top_decl i /\ inner_decls j = inner_decls i).
      { destruct H; cbn [item_ok top_decl inner_decls] in *; auto.
        rewrite (inlined_block_decls _ _ H). auto. }
      destruct B as (B1 & B2 & B3). rewrite B2, B3. auto. }
    destruct A as (A1 & A2 & A3). unfold tree_ok, all_ids. rewrite A2, A3. auto.
  Qed.
End After.

Lemma folded_tree l is js : Forall2 (folded l) is js -> tree_ok is -> tree_ok js /\ all_ids js = all_ids is.
Proof.
  intros F [H1 H2].
  assert (A : Forall item_ok js /\ flat_map (fun i => map vd_id (inner_decls i)) js = flat_map (fun i => map vd_id (inner_decls i)) is).
  { clear H2. induction F as [|i j is js H F IH]; [repeat split; constructor|]. inversion H1; subst.
    destruct (IH H4) as (I1 & I2). cbn [flat_map]. rewrite I2.
    assert (B : item_ok j /\ inner_decls j = inner_decls i) by (destruct H; cbn [item_ok inner_decls] in *; auto).
    destruct B as (B1 & B3). rewrite B3. auto. }
  destruct A as (A1 & A3). unfold tree_ok, all_ids. rewrite (folded_tops _ _ _ F), A3. auto.
Qed.

(** ** The whole analysis *)
Record sema_done (addr : nat -> Z) (cs : list child) (r2 : list ritem) (n1 : nat) : Prop := SemaDone {
  sd_stages : exists r r1 n, annotate addr cs = Ok (r, n) /\
    Forall2 (folded (int_const r1)) r r1 /\ Forall2 (inlined_item (stands_for r2)) r1 r2;
  sd_tree : tree_ok r2;
  sd_ids : Forall (fun i => (i < n1)%nat) (all_ids r2);
  sd_uses : Forall innermost (uses r2);
  sd_settled : Forall (fun u => settled (top_decls r2) (fst u)) (uses r2);
  sd_init : forall d, In (RGlobal d None) r2 -> vd_const d = false;
  sd_names : decl_items [] r2;
  sd_calls : Forall call_ok (program_exprs r2)
}.
Lemma run_sema_done addr cs r2 n1 : run_sema addr cs = Ok (r2, n1) -> sema_done addr cs r2 n1.
Proof.
  unfold run_sema. intros E. inv_bind E. destruct a as [r n]. inv_bind E. destruct a as [r1 n1'].
  inv_bind E. inv_bind E. destruct a0. inv_bind E. destruct a0. inversion E; subst.
  destruct (annotate_inv _ _ _ _ E0) as [_ I]. destruct (annotate_tree _ _ _ _ E0) as [T B].
  assert (K : consts_known r).
  { split; [|apply uses_settled; [apply T|exact I]]. destruct T as [_ T]. unfold all_ids in T.
    clear -T. revert T. generalize (map decl_id (top_decls r)). intros l T.
    induction l; [constructor|]. cbn [app] in T. inversion T; subst. constructor; [|auto].
    intros X. apply H1. apply in_app_iff. auto. }
  destruct (global_vars_folded _ _ _ _ K E1) as [F Le].
  pose proof (consts_known_folded _ _ _ F K) as K1.
  destruct (consts_inv _ _ K1 E2) as (A1 & A2 & A3 & A4).
  destruct (folded_tree _ _ _ F T) as [T1 Q1].
  destruct (inlined_tree _ _ _ A1 T1) as [T2 Q2].
  assert (I2 : Forall innermost (uses r2)).
  { apply A4. unfold uses. rewrite (folded_tops _ _ _ F). eapply folded_all_uses; [exact F|exact I]. }
  econstructor; try eassumption.
  - exists r, r1, n. auto.
  - rewrite Q2, Q1. eapply Forall_impl; [|exact B]. cbv beta. lia.
  - apply uses_settled; [apply T2|exact I2].
  - apply multi_decls_iff. exact E3.
  - apply num_args_iff. exact E4.
Qed.

(** Every name in the program is among the uses. *)
Lemma inside_used e : forall d l sc, In (RIdent d l) (inside e) -> In (d, sc) (uses_expr sc e).
Proof.
  induction e using rexpr_nested; intros d l0 sc I; cbn [inside In] in I; cbn [uses_expr];
    (destruct I as [I|I]; [try discriminate; inversion I; subst; now left|]); try contradiction.
  - apply in_flat_map in I. destruct I as (x & I1 & I2). rewrite Forall_forall in H. apply in_flat_map. eauto.
  - apply in_app_iff in I. apply in_app_iff. destruct I; eauto.
  - apply in_app_iff in I. apply in_app_iff. destruct I as [I|I]; [eauto|].
    apply in_flat_map in I. destruct I as (x & I1 & I2). rewrite Forall_forall in H. left. apply in_flat_map. eauto.
  - apply in_app_iff in I. apply in_app_iff. destruct I; eauto.
  - eauto.
Qed.
Definition used_in (f : rstmt -> list rexpr) (s : rstmt) : Prop := forall sc d l,
  In (RIdent d l) (flat_map inside (f s)) -> exists sc', In (d, sc') (uses_stmt sc s).
Lemma used_block b : Forall (used_in exprs_stmt) b -> forall sc d l,
  In (RIdent d l) (flat_map inside (flat_map exprs_stmt b)) -> exists sc', In (d, sc') (uses_block sc b).
Proof.
  induction 1 as [|s b Hs Hb IH]; intros sc d l I; [destruct I|].
  cbn [flat_map] in I. rewrite flat_map_app in I. unfold uses_block. cbn [in_order].
  apply in_app_iff in I. destruct I as [I|I].
  - destruct (Hs sc _ _ I) as [sc' J]. exists sc'. apply in_app_iff. auto.
  - destruct (IH (after_stmt sc s) _ _ I) as [sc' J]. exists sc'. apply in_app_iff. auto.
Qed.
Lemma used_stmt s : used_in exprs_stmt s.
Proof.
  induction s using rstmt_nested; intros sc d0 l0 I; cbn [exprs_stmt] in I; cbn [uses_stmt].
  - destruct e; [|destruct I]. cbn [opt_list flat_map] in I. rewrite app_nil_r in I. eexists. eapply inside_used. exact I.
  - cbn [flat_map] in I. rewrite app_nil_r in I. eexists. apply in_app_iff. left. eapply inside_used. exact I.
  - cbn [flat_map] in I. rewrite app_nil_r in I. eexists. apply in_app_iff. left. eapply inside_used. exact I.
  - cbn [flat_map] in I. rewrite app_nil_r in I. eexists. rewrite !in_app_iff. apply in_app_iff in I.
    destruct I as [I|I]; [left|right; left]; eapply inside_used; exact I.
  - change (flat_map inside [RCall l f es]) with (inside (RCall l f es) ++ []) in I. rewrite app_nil_r in I.
    eexists. apply (inside_used _ _ _ sc) in I. exact I.
  - cbn [flat_map] in I. rewrite flat_map_app, !in_app_iff in I. setoid_rewrite in_app_iff. setoid_rewrite in_app_iff.
    destruct I as [I|[I|I]].
    + eexists. left. eapply inside_used. exact I.
    + destruct t as [b|]; [|destruct I]. destruct (used_block _ H ([] :: sc) _ _ I) as [sc' J]. exists sc'. auto.
    + destruct f as [b|]; [|destruct I].
      destruct (used_block _ H0 (match t with Some b => after_block ([] :: sc) b | None => [] :: sc end) _ _ I) as [sc' J].
      exists sc'. auto.
  - cbn [flat_map] in I. rewrite !in_app_iff in I. setoid_rewrite in_app_iff.
    destruct I as [I|I].
    + eexists. left. eapply inside_used. exact I.
    + destruct b as [b|]; [|destruct I]. destruct (used_block _ H ([] :: sc) _ _ I) as [sc' J]. exists sc'. auto.
  - cbn [flat_map] in I. rewrite !in_app_iff in I. cbn [In]. setoid_rewrite in_app_iff. setoid_rewrite in_app_iff.
    destruct I as [I|[I|I]].
    + eexists. right. left. eapply inside_used. exact I.
    + eexists. right. right. left. eapply inside_used. exact I.
    + destruct (used_block _ H ([] :: sc) _ _ I) as [sc' J]. exists sc'. auto.
  - destruct e; [|destruct I]. cbn [opt_list flat_map] in I. rewrite app_nil_r in I. eexists. eapply inside_used. exact I.
Qed.
Lemma used_program items d l : In (RIdent d l) (program_exprs items) -> exists sc, In (d, sc) (uses items).
Proof.
  unfold program_exprs, uses. rewrite flat_map_flat. intros I. apply in_flat_map in I. destruct I as (i & I1 & I2).
  assert (X : exists sc, In (d, sc) (uses_item (top_decls items) i)).
  { destruct i as [f|d' oe|f args body lend]; cbn [exprs_item uses_item] in *.
    - destruct I2.
    - destruct oe; [|destruct I2]. cbn [opt_list flat_map] in I2. rewrite app_nil_r in I2. eexists. eapply inside_used. exact I2.
    - eapply used_block; [|exact I2]. apply Forall_forall. intros s _. apply used_stmt. }
  destruct X as [sc X]. exists sc. apply in_flat_map. eauto.
Qed.
