(** Proof support: instruction boundaries, jump targets, call operands and slots
    of generated code. *)
From Coq Require Import ZArith List Bool Lia ZifyBool.
From Verif Require Import Base BaseFacts F32 Instr InstrSpec InstrProofs Program VM AbsHeap VmSpec VmFacts Ast Sema SemaSpec SemaFacts Codegen
  SrcSem SrcFacts CgCode CgLayout CgSlots CgStep CgSys CgSim CgSpec CgOps CgLink.
Import ListNotations.
Open Scope Z_scope.
Open Scope list_scope.

(** ** One instruction at an address *)
Lemma at_ins_same prog a x y : at_ins prog a x -> at_ins prog a y -> x = y.
Proof.
  intros X Y. pose proof (at_opcode _ _ _ X) as A. rewrite (at_opcode _ _ _ Y) in A. inversion A as [O]. clear A.
  apply (f_equal of_opcode) in O. rewrite !of_opcode_opcode in O. inversion O as [O1]. clear O.
  pose proof X as X'. pose proof Y as Y'. destruct X' as (_ & _ & Wx & _). destruct Y' as (_ & _ & Wy & _).
  destruct x as [i|i u|i u v], y as [j|j w|j w z]; cbn [ins_op ins_wf] in *; subst; try lia; try reflexivity.
  - destruct (at_operand1 _ _ _ _ X) as (r1 & E1). destruct (at_operand1 _ _ _ _ Y) as (r2 & E2). congruence.
  - destruct (at_operand2 _ _ _ _ _ X) as [(r1 & E1) (r2 & E2)]. destruct (at_operand2 _ _ _ _ _ Y) as [(r3 & E3) (r4 & E4)]. congruence.
Qed.
Lemma swidth_len fa x : ins_wf (linked_ins fa x) -> swidth x = ins_len (ins_op (linked_ins fa x)).
Proof.
  unfold ins_len. destruct x as [[i|i o|i o1 o2]|n f|f]; cbn [linked_ins ins_op ins_wf].
  - intros H. rewrite sw0, H by exact H. reflexivity.
  - intros [H _]. rewrite sw1, H by exact H. reflexivity.
  - intros [H _]. rewrite sw2, H by exact H. reflexivity.
  - intros _. apply sw_call.
  - intros _. apply sw_fn.
Qed.
Lemma swidth_pos fa x : ins_wf (linked_ins fa x) -> 1 <= swidth x.
Proof. intros H. rewrite (swidth_len fa) by exact H. unfold ins_len. destruct (ins_op (linked_ins fa x)); cbn; lia. Qed.

Section Starts.
  Variables (q : program_t) (fa : fdecl -> Z).
  Hypothesis QL : 4 < zlen (p_code q).
  Lemma code_in a p x r : code_at q fa a (p ++ x :: r) -> at_ins q (a + clen p) (linked_ins fa x) /\ ins_wf (linked_ins fa x).
  Proof.
    intros C. apply code_at_app in C. destruct C as [_ C]. apply code_at_cons in C. destruct C as [C _].
    split; [apply (code_at_ins q fa (fun _ => 0) QL); exact C|]. destruct C as [_ W]. inversion W; assumption.
  Qed.
  Lemma starts_inside base l : code_at q fa base l -> l <> [] -> forall b, starts q base b -> b < base + clen l ->
    exists p x r, l = p ++ x :: r /\ b = base + clen p.
  Proof.
    intros C N b S. induction S as [|b y S IH A]; intros L.
    - destruct l as [|x r]; [contradiction|]. exists [], x, r. split; [reflexivity|]. change (clen []) with 0. lia.
    - assert (0 < ins_len (ins_op y)) by (unfold ins_len; destruct (ins_op y); cbn; lia).
      destruct IH as (p & x & r & E & B); [lia|]. rewrite E in C. destruct (code_in _ _ _ _ C) as [A2 W]. rewrite <- B in A2.
      rewrite (at_ins_same _ _ _ _ A A2) in *. rewrite <- (swidth_len fa) in * by exact W.
      destruct r as [|z r].
      + exfalso. rewrite E, clen_app, clen1 in L. lia.
      + exists (p ++ [x]), z, r. split; [rewrite E, <- app_assoc; reflexivity|]. rewrite clen_app, clen1. lia.
  Qed.
  Lemma starts_mark base l : code_at q fa base l -> forall t, mark base l t -> starts q base t.
  Proof.
    intros C t (p & r & E & ->). revert r E. induction p as [|x p IH] using rev_ind; intros r E.
    - change (clen []) with 0. rewrite Z.add_0_r. constructor.
    - rewrite <- app_assoc in E. cbn [app] in E. specialize (IH _ E). rewrite E in C. destruct (code_in _ _ _ _ C) as [A W].
      rewrite clen_app, clen1, Z.add_assoc, (swidth_len fa) by exact W. apply starts_next; assumption.
  Qed.
End Starts.

(** ** Jumps never lead to the end of a function *)
Lemma cfunc_jumps m sizes sx ng fa f args body base k : in_i32 (space sizes f args) = true -> exists p i,
  cfunc m sizes sx ng f args body base k = p ++ [SI (I1 INS_RET i)] /\
  jto fa base p (cfunc m sizes sx ng f args body base k).
Proof.
  intros Sp. assert (JP : forall L, jto fa base L (prologue sizes ng f)).
  { intros L. apply jto_nj. unfold prologue. destruct (is_init f); [constructor; [reflexivity|constructor]|].
    destruct (0 <? fsize sizes f); [constructor; [reflexivity|constructor]|constructor]. }
  unfold cfunc, epilogue. destruct (negb (is_init f) && ends_in_return body) eqn:E.
  - apply andb_true_iff in E. destruct E as [_ E]. destruct (ends_in_return_last _ E) as (a & l & oe & ->).
    rewrite cblock_app, app_nil_r.
    set (P := prologue _ _ _) in *. set (A := cblock _ _ _ a _ _). set (B := base + clen P + clen A). set (K := k + _).
    set (X := match oe with Some e => cexpr m sx e K | None => [SI (I0 INS_NEW_NONE)] end).
    change (cblock m sx (space sizes f args) [RReturn l oe] B K) with ((X ++ [SI (I1 INS_RET (space sizes f args))]) ++ []).
    rewrite app_nil_r. exists (P ++ A ++ X), (space sizes f args). split; [rewrite <- !app_assoc; reflexivity|].
    apply jto_app; [apply JP|]. apply jto_app.
    + apply (jto_skip fa 0 eq_refl), jto_more. unfold A. apply (jump_block m sx). exact Sp.
    + apply jto_nj. apply Forall_app. split; [|constructor; [reflexivity|constructor]]. unfold X.
      destruct oe; [apply nj_expr|constructor; [reflexivity|constructor]].
  - set (P := prologue _ _ _) in *. set (A := cblock _ _ _ body _ _).
    exists (P ++ A ++ [SI (I1 INS_NEW_INT 0)]), (space sizes f args). split; [rewrite <- !app_assoc; reflexivity|].
    apply jto_app; [apply JP|]. apply jto_app.
    + apply (jto_skip fa 0 eq_refl), jto_more. unfold A. apply (jump_block m sx). exact Sp.
    + apply jto_nj. constructor; [reflexivity|]. constructor; [reflexivity|constructor].
Qed.

(** ** Operands that are functions *)
Section Operands.
  Variables (m : slots) (sx : bytes -> Z) (items : list ritem) (sp : Z).
  Definition known (f : fdecl) : Prop := exists args body lend, In (RFunc f args body lend) items.
  Definition FO (x : sins) : Prop :=
    match x with
    | SI y => function_operand y = None
    | SCall _ f | SFn f => known f
    end.
  Notation good es := (Forall (declared items) (flat_map inside es)).
  Lemma fo_get d : FO (getd m d). Proof. unfold getd. destruct (vd_kind d); reflexivity. Qed.
  Lemma fo_set d : FO (setd m d). Proof. unfold setd. destruct (vd_kind d); reflexivity. Qed.
  Lemma fo_bin o : FO (SI (I0 (ins_of_bin o))). Proof. destruct o; reflexivity. Qed.
  Lemma fo_un o : FO (SI (I0 (ins_of_un o))). Proof. destruct o; reflexivity. Qed.
  Ltac fo := repeat first [apply Forall_app; split|apply Forall_cons|apply Forall_nil|apply fo_get|apply fo_set|apply fo_bin|apply fo_un]; try reflexivity.
  Lemma fo_expr e : forall k, Forall (declared items) (inside e) -> Forall FO (cexpr m sx e k).
  Proof.
    assert (ES : forall es, Forall (fun e0 => forall k, Forall (declared items) (inside e0) -> Forall FO (cexpr m sx e0 k)) es ->
      forall k, good es -> Forall FO (clist (cexpr m sx) es k)).
    { induction 1 as [|e1 es H F IH]; intros k D; cbn [clist flat_map] in *; [constructor|]. apply Forall_app in D. destruct D. apply Forall_app. auto. }
    induction e using rexpr_nested; intros k D; cbn [cexpr inside] in *; inversion D as [|? ? D1 D2]; subst; fo.
    - destruct x as [d|f]; fo. cbn [declared] in D1. destruct (fd_sys f); [reflexivity|]. exact (D1 eq_refl).
    - apply ES; assumption.
    - apply Forall_app in D2. apply IHe2, D2.
    - apply Forall_app in D2. apply IHe1, D2.
    - apply Forall_app in D2. apply ES; [assumption|apply D2].
    - apply Forall_app in D2. destruct D2 as [D2 _]. destruct e as [| | | |[|fd]| | | | | |]; try (apply Forall_app; split; [apply IHe; assumption|fo]). fo.
      cbn [inside] in D2. inversion D2 as [|? ? D3 _]; subst. cbn [declared] in D3. destruct (fd_sys fd); [reflexivity|]. exact (D3 eq_refl).
    - apply Forall_app in D2. apply IHe1, D2.
    - apply Forall_app in D2. apply IHe2, D2.
    - apply IHe, D2.
  Qed.
  Lemma good_app a b : good (a ++ b) -> good a /\ good b.
  Proof. rewrite flat_map_app. apply Forall_app. Qed.
  Lemma good_cons a b : good (a :: b) -> Forall (declared items) (inside a) /\ good b.
  Proof. apply Forall_app. Qed.
  Definition FOst (x : rstmt) : Prop := forall base k, good (exprs_stmt x) -> Forall FO (cstmt m sx sp x base k).
  Lemma fo_block b : Forall FOst b -> forall base k, good (flat_map exprs_stmt b) -> Forall FO (cblock m sx sp b base k).
  Proof.
    induction 1 as [|x b H F IH]; intros base k D; [constructor|]. cbn [flat_map] in D. apply good_app in D. destruct D.
    rewrite cblock_cons. apply Forall_app. auto.
  Qed.
  Lemma fo_oblock o : oall FOst o -> forall base k, good (match o with Some b => flat_map exprs_stmt b | None => [] end) ->
    Forall FO (coblock m sx sp o base k).
  Proof. destruct o; intros; [apply fo_block; assumption|constructor]. Qed.
  Lemma fo_stmt x : FOst x.
  Proof.
    induction x using rstmt_nested; intros base k D; cbn [exprs_stmt] in D.
    - cbn [cstmt]. destruct (vd_kind d); try constructor. destruct (vd_const d); [constructor|]. destruct e as [e|]; [|constructor].
      apply good_cons in D. fo. apply fo_expr, D.
    - cbn [cstmt]. apply good_cons in D. fo. apply fo_expr, D.
    - cbn [cstmt]. apply good_cons in D. fo. apply fo_expr, D.
    - cbn [cstmt]. apply good_cons in D. destruct D as [D1 D]. apply good_cons in D. fo; apply fo_expr; [apply D|exact D1].
    - change (cstmt m sx sp (RCallS l f es) base k) with (cexpr m sx (RCall l f es) k ++ [SI (I1 INS_POP 1)]).
      apply good_cons in D. apply Forall_app. split; [apply fo_expr, D|fo].
    - rewrite cstmt_if. cbv zeta. apply good_cons in D. destruct D as [D1 D]. apply good_app in D. destruct D as [D2 D3].
      destruct f; fo; try (apply fo_expr; assumption); try (apply fo_oblock; assumption).
    - rewrite cstmt_while. cbv zeta. apply good_cons in D. destruct D as [D1 D]. fo; [apply fo_oblock; assumption|apply fo_expr; assumption].
    - rewrite cstmt_for. cbv zeta. apply good_cons in D. destruct D as [D1 D]. apply good_cons in D. destruct D as [D2 D3].
      fo; [apply fo_expr; assumption|apply fo_block; assumption|apply fo_expr; assumption].
    - cbn [cstmt]. fo. destruct e as [e|]; [|fo]. apply good_cons in D. apply fo_expr, D.
  Qed.
End Operands.

Section Flow.
  Variables (items : list ritem) (n : nat) (q : program_t).
  Hypothesis Gen : generate items n = Ok q.
  Hypothesis Pok : program_ok items n.
  Hypothesis Fit : fits q.
  Lemma bound_self : bound q q. Proof. constructor; reflexivity. Qed.
  Let Bnd := bound_self.
  Let m := g_slots items n.
  Let sizes := g_sizes items n.
  Let ng := g_ng items n.
  Let sx := sys_index q.
  Let fa := fun f => address q (fd_name f).
  Let lay := g_layout items n sx.

  Lemma in_functions f : In f (p_functions q) -> exists p, In p lay /\ f = placed_function m sizes sx ng p.
  Proof.
    rewrite (gd_funs _ _ _ _ (made items n q q Gen Pok Bnd)). intros I. apply in_map_iff in I. destruct I as (p & E & I). eauto.
  Qed.
  Lemma place_operands p : In p lay -> Forall (FO items) (g_code_of items n sx p).
  Proof.
    intros I. destruct (place_item items n q p I) as (lend & J). unfold g_code_of, pl_code, cfunc.
    apply Forall_app. split; [|apply Forall_app; split].
    - unfold prologue. destruct (is_init (pl_f p)); [repeat constructor|]. destruct (0 <? fsize _ _); repeat constructor.
    - apply fo_block; [apply Forall_forall; intros; apply fo_stmt|].
      apply (exprs_all items); [apply Pok|eapply body_exprs; exact J].
    - unfold epilogue. destruct (negb _ && _); repeat constructor.
  Qed.
  Lemma known_function f : known items f -> exists g, In g (p_functions q) /\ f_start g = fa f.
  Proof.
    intros (args & body & lend & I).
    destruct (layout_in m sizes sx ng (g_items items n) f args body lend) with (base := 0) (k := 0) as (p & K & E1 & _).
    { unfold g_items, add_init. apply in_app_iff. left. exact I. }
    exists (placed_function m sizes sx ng p). split.
    - rewrite (gd_funs _ _ _ _ (made items n q q Gen Pok Bnd)). apply in_map. exact K.
    - cbn [f_start placed_function]. unfold fa. rewrite <- E1. symmetry. apply (address_place items n q q Gen Pok Bnd). exact K.
  Qed.

  Lemma flow f a : In f (p_functions q) -> starts q (f_start f) a -> a < f_end f ->
    exists x, at_ins q a x /\ a + ins_len (ins_op x) <= f_end f /\
      (forall t, jump_target x = Some t -> f_start f <= t < f_end f /\ starts q (f_start f) t) /\
      (forall t, function_operand x = Some t -> exists g, In g (p_functions q) /\ f_start g = t).
  Proof.
    intros I S L. destruct (in_functions _ I) as (p & Ip & ->). cbn [f_start f_end placed_function] in *.
    pose proof (place_code_at items n q q Gen Pok Fit Bnd p Ip) as C. pose proof (q_len items n q q Gen Pok Bnd) as QL.
    unfold g_code_of in C. fold m sizes sx ng fa in C.
    assert (N : pl_code m sizes sx ng p <> []).
    { intros N. pose proof (cfunc_pos m sizes sx ng (pl_f p) (pl_args p) (pl_body p) (pl_base p) (pl_k p)) as X.
      unfold pl_code in N. rewrite N in X. change (clen []) with 0 in X. lia. }
    destruct (starts_inside q fa QL _ _ C N _ S L) as (pre & x & r & E & B).
    assert (C2 : code_at q fa (pl_base p) (pre ++ x :: r)) by (rewrite <- E; exact C).
    destruct (code_in q fa QL _ _ _ _ C2) as [A W].
    exists (linked_ins fa x). rewrite B. split; [exact A|]. split; [|split].
    - rewrite <- (swidth_len fa) by exact W. rewrite E, clen_app, clen_cons. pose proof (clen_nonneg r). lia.
    - intros t T. destruct (cfunc_jumps m sizes sx ng fa (pl_f p) (pl_args p) (pl_body p) (pl_base p) (pl_k p)) as (body & i & E2 & J).
      { apply small_i32, (size_range items n q q Gen Pok Fit Bnd p Ip). }
      fold (pl_code m sizes sx ng p) in E2, J.
      assert (In x (pl_code m sizes sx ng p)) as Ix by (rewrite E; apply in_app_iff; right; left; reflexivity).
      unfold jto in J. rewrite Forall_forall in J. specialize (J x Ix t T).
      assert (R : pl_base p <= t <= pl_base p + clen body).
      { destruct J as (u & v & -> & ->). rewrite clen_app. pose proof (clen_nonneg u). pose proof (clen_nonneg v). lia. }
      split.
      + rewrite E2, clen_app, clen1, sw1 by reflexivity. lia.
      + apply (starts_mark q fa QL _ _ C). rewrite E2. apply mark_more. exact J.
    - intros t T. pose proof (place_operands p Ip) as F. unfold g_code_of in F. fold m sizes sx ng in F. rewrite E in F. apply Forall_app in F. destruct F as [_ F].
      inversion F as [|? ? F1 _]; subst. destruct x as [y|k f|f]; cbn [FO linked_ins function_operand] in *.
      + congruence.
      + inversion T; subst. apply known_function, F1.
      + inversion T; subst. apply known_function, F1.
  Qed.
  Lemma ranges f : In f (p_functions q) -> 0 <= f_start f < f_end f /\ f_end f <= zlen (p_code q).
  Proof.
    intros I. destruct (in_functions _ I) as (p & Ip & ->). cbn [f_start f_end placed_function].
    destruct (place_code items n q q Gen Pok Bnd p Ip) as (pre & suf & E & B). rewrite E, !zlen_app, zlen_code_of.
    pose proof (cfunc_pos m sizes sx ng (pl_f p) (pl_args p) (pl_body p) (pl_base p) (pl_k p)) as X. fold (pl_code m sizes sx ng p) in X.
    pose proof (zlen_nonneg pre). pose proof (zlen_nonneg suf). unfold g_code_of. fold m sizes sx ng. lia.
  Qed.
  Lemma ranges_apart f g : In f (p_functions q) -> In g (p_functions q) -> f = g \/ f_end f <= f_start g \/ f_end g <= f_start f.
  Proof.
    intros I J. destruct (in_functions _ I) as (p & Ip & ->). destruct (in_functions _ J) as (p' & Jp & ->). cbn [f_start f_end placed_function].
    destruct (layout_disjoint _ _ _ _ _ _ _ _ _ Ip Jp) as [->|D]; [left; reflexivity|right; exact D].
  Qed.
End Flow.


(** ** Slots of the locals in scope *)
Lemma filter_rev' {A} (p : A -> bool) l : filter p (rev l) = rev (filter p l).
Proof.
  induction l as [|x l IH]; [reflexivity|]. cbn [rev filter]. rewrite filter_app, IH. cbn [filter].
  destruct (p x); [reflexivity|apply app_nil_r].
Qed.
Definition numbered (m : slots) (l : list vdecl) : Prop :=
  forall i d, znth (rev (filter local_slot l)) i = Some d -> assoc m (vd_id d) = i.
Lemma scope_numbered m size b l x l' : scope b l x l' -> bplaced m size b (zlen (filter local_slot l)) -> numbered m l -> numbered m l'.
Proof.
  induction 1 as [x b l|x b l y l' S IH|k c t f b l y l' S IH|k c t f b l y l' S IH|k c t b l y l' S IH|k d lx e1 e2 t b l y l' S IH]; intros B N.
  - exact N.
  - destruct B as [B1 B2]. unfold next_slot in B2. apply IH.
    + destruct x; cbn [declares app filter]; try exact B2. cbn [placed] in B1. destruct (local_slot d); [|exact B2].
      rewrite zlen_cons. exact B2.
    + destruct x; cbn [declares app]; try exact N. intros i e0 Z. cbn [filter] in Z. cbn [placed] in B1.
      destruct (local_slot d); [|exact (N _ _ Z)]. cbn [rev] in Z. pose proof (znth_some _ _ _ Z) as R.
      rewrite zlen_app, zlen_rev in R. change (zlen [d]) with 1 in R.
      destruct (Z.eq_dec i (zlen (filter local_slot l))) as [->|D].
      * rewrite znth_app2, zlen_rev, Z.sub_diag in Z by (rewrite zlen_rev; lia). inversion Z; subst. apply B1.
      * rewrite znth_app1 in Z by (rewrite zlen_rev; lia). exact (N _ _ Z).
  - destruct B as [[B1 _] _]. apply IH; assumption.
  - destruct B as [[_ B1] _]. apply IH; assumption.
  - destruct B as [B1 _]. apply IH; assumption.
  - destruct B as [B1 _]. apply IH; assumption.
Qed.
Lemma numbered_nil m : numbered m []. Proof. intros i d Z. discriminate. Qed.
Lemma in_znth {A} (l : list A) x : In x l -> exists i, znth l i = Some x.
Proof.
  intros I. apply In_nth_error in I. destruct I as (i & E). exists (Z.of_nat i). rewrite znth_nth_error by lia. now rewrite Znat.Nat2Z.id.
Qed.
Lemma numbered_apart m l d e : numbered m l -> In d l -> In e l -> local_slot d = true -> local_slot e = true ->
  assoc m (vd_id d) = assoc m (vd_id e) -> d = e.
Proof.
  intros N Id Ie Ld Le E.
  assert (forall x, In x l -> local_slot x = true -> exists i, znth (rev (filter local_slot l)) i = Some x) as K.
  { intros x I L. apply in_znth. apply in_rev. rewrite rev_involutive. apply filter_In. auto. }
  destruct (K _ Id Ld) as (i & Zi). destruct (K _ Ie Le) as (j & Zj). rewrite (N _ _ Zi), (N _ _ Zj) in E. congruence.
Qed.

Definition inrange (m : slots) (size : Z) (x : rstmt) : Prop := forall c, 0 <= c -> placed m size x c ->
  forall d, In d (local_decls x) -> local_slot d = true -> 0 <= assoc m (vd_id d) < size.
Lemma range_block m size b : Forall (inrange m size) b -> forall c, 0 <= c -> bplaced m size b c ->
  forall d, In d (flat_map local_decls b) -> local_slot d = true -> 0 <= assoc m (vd_id d) < size.
Proof.
  induction 1 as [|x b H F IH]; intros c P B d I L; [contradiction|]. destruct B as [B1 B2]. cbn [flat_map] in I. apply in_app_iff in I.
  destruct I as [I|I]; [exact (H c P B1 d I L)|]. apply (IH (next_slot x c)); try assumption.
  unfold next_slot. destruct x; try lia. destruct (local_slot d0); lia.
Qed.
Lemma range_oblock m size o : oall (inrange m size) o -> forall c, 0 <= c -> oplaced m size o c ->
  forall d, In d (match o with Some b => flat_map local_decls b | None => [] end) -> local_slot d = true -> 0 <= assoc m (vd_id d) < size.
Proof. destruct o; [apply range_block|intros ? ? ? ? ? []]. Qed.
Lemma range_stmt m size x : inrange m size x.
Proof.
  induction x using rstmt_nested; intros c0 P B v I L; try (destruct I; fail); try contradiction.
  - destruct I as [<-|[]]. cbn [placed] in B. rewrite L in B. lia.
  - destruct B as [B1 B2]. cbn [local_decls] in I. apply in_app_iff in I. destruct I as [I|I].
    + eapply (range_oblock m size t); eassumption.
    + eapply (range_oblock m size f); eassumption.
  - eapply (range_oblock m size b); eassumption.
  - eapply (range_block m size body); eassumption.
Qed.

Section FrameSlots.
  Variables (items : list ritem) (n : nat) (q : program_t).
  Hypothesis Gen : generate items n = Ok q.
  Hypothesis Pok : program_ok items n.
  Hypothesis Fit : fits q.
  Variables (f : fdecl) (args : list vdecl) (body : list rstmt) (lend : line_t).
  Hypothesis If : In (RFunc f args body lend) items.
  Let m := g_slots items n.
  Let size := assoc (g_sizes items n) (fd_id f).
  Let Ja : In (RFunc f args body lend) (g_items items n).
  Proof. unfold g_items, add_init. apply in_app_iff. left. exact If. Qed.
  Lemma fs_apart x l d e : scope body [] x l -> In d l -> In e l -> local_slot d = true -> local_slot e = true ->
    assoc m (vd_id d) = assoc m (vd_id e) -> d = e.
  Proof.
    intros S. apply numbered_apart. apply (scope_numbered m size _ _ _ _ S); [|apply numbered_nil].
    exact (so_body _ _ _ (slots_good items n Pok) _ _ _ _ Ja).
  Qed.
  Lemma fs_range d : In d (decls_block body) -> local_slot d = true -> 0 <= assoc m (vd_id d) < size.
  Proof.
    rewrite decls_block_local. apply (range_block m size body) with (c := 0); [apply Forall_forall; intros; apply range_stmt|lia|].
    exact (so_body _ _ _ (slots_good items n Pok) _ _ _ _ Ja).
  Qed.
  Lemma fs_args i d : znth args i = Some d -> assoc m (vd_id d) = i - zlen args.
  Proof.
    intros Z. pose proof (znth_some _ _ _ Z). rewrite znth_nth_error in Z by lia.
    unfold m. rewrite (so_args _ _ _ (slots_good items n Pok) _ _ _ _ _ _ Ja Z). lia.
  Qed.
  Lemma fs_function : exists g, In g (p_functions q) /\ f_name g = fd_name f /\
    f_args g = map (ident_of m) args /\ f_locals g = map (ident_of m) (decls_block body) /\
    (0 < size -> at_ins q (f_start g) (I1 INS_LOCALS size)).
  Proof.
    set (sx := sys_index q).
    destruct (layout_in m (g_sizes items n) sx (g_ng items n) (g_items items n) f args body lend Ja 0 0) as (p & K & E1 & E2 & E3).
    exists (placed_function m (g_sizes items n) sx (g_ng items n) p). split.
    - rewrite (gd_funs _ _ _ _ (made items n q q Gen Pok (bound_self q))). apply in_map. exact K.
    - cbn [f_name f_args f_locals f_start placed_function]. rewrite E1, E2, E3. split; [reflexivity|]. split; [reflexivity|]. split; [reflexivity|].
      intros P. pose proof (place_code_at items n q q Gen Pok Fit (bound_self q) p K) as C. unfold g_code_of, pl_code, cfunc in C.
      rewrite E1 in C. unfold prologue in C. rewrite (not_init items n Pok _ _ _ _ If) in C. unfold fsize in C. fold size in C.
      replace (0 <? size) with true in C by lia. apply code_at_app in C. destruct C as [C _].
      apply (code_at_ins q (fun f => address q (fd_name f)) (fun _ => 0) (q_len items n q q Gen Pok (bound_self q))) in C. exact C.
  Qed.
End FrameSlots.
