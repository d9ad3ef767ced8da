(** Proof support: what [generate] returns, in terms of the lists of
    instructions of CgCode.v. *)
From Coq Require Import ZArith List Bool Lia ZifyBool.
From Verif Require Import Base BaseFacts F32 Instr InstrSpec InstrProofs Program Ast Sema SemaFacts Codegen CgCode.
Import ListNotations.
Open Scope Z_scope.

(** ** Call operands *)
Lemma sbytes_call fa n f : sbytes fa (SCall n f) = (opcode INS_CALL :: le32 n) ++ le32 (fa f).
Proof. reflexivity. Qed.
Lemma sbytes_fn fa f : sbytes fa (SFn f) = [opcode INS_NEW_FUNC] ++ le32 (fa f).
Proof. reflexivity. Qed.

Definition same_but_code (s s' : cg) : Prop :=
  g_globals s' = g_globals s /\ g_sys s' = g_sys s /\ g_funs s' = g_funs s /\
  g_strs s' = g_strs s /\ g_map s' = g_map s.

Lemma apply_call_one fa f v pre a b s s' : zlen b = 4 -> fa f = map_get (g_map s) (fd_name f) ->
  g_code s = pre ++ b ++ a -> v = zlen pre -> apply_call (f, v) s = Ok s' ->
  g_code s' = pre ++ le32 (fa f) ++ a /\ same_but_code s s' /\ fd_line f <> None.
Proof.
  intros B F C -> E. unfold apply_call in E. cbn [fst snd] in E. destruct (fd_line f); [|discriminate].
  unfold patch in E. rewrite C, fixup_middle in E by exact B. cbn [bind] in E. inversion E; subst.
  rewrite F. repeat split; discriminate.
Qed.

Lemma calls_applied fa L : forall pre s s', g_code s = pre ++ code_of hole L ->
  (forall f, fa f = map_get (g_map s) (fd_name f)) ->
  walk apply_call (fixes (zlen pre) L) s = Ok s' ->
  g_code s' = pre ++ code_of fa L /\ same_but_code s s'.
Proof.
  induction L as [|x L IH]; intros pre s s' C F E.
  - cbn [fixes walk] in E. inversion E; subst. split; [exact C|]. repeat split; reflexivity.
  - assert (One : forall s1, g_code s1 = (pre ++ sbytes fa x) ++ code_of hole L -> same_but_code s s1 ->
                  walk apply_call (fixes (zlen pre + swidth x) L) s1 = Ok s' ->
                  g_code s' = pre ++ code_of fa (x :: L) /\ same_but_code s s').
    { intros s1 C1 (A1 & A2 & A3 & A4 & A5) E1. destruct (IH (pre ++ sbytes fa x) s1 s') as [D (B1 & B2 & B3 & B4 & B5)].
      - exact C1.
      - intros f. rewrite A5. apply F.
      - rewrite zlen_app, zlen_sbytes. exact E1.
      - split; [|repeat split; congruence]. rewrite D, <- app_assoc. reflexivity. }
    change (code_of hole (x :: L)) with (sbytes hole x ++ code_of hole L) in C.
    destruct x as [x|n f|f]; cbn [fixes app] in E.
    + apply (One s); [rewrite C, <- app_assoc; reflexivity|repeat split; reflexivity|exact E].
    + cbn [walk] in E. apply bind_ok in E. destruct E as (s1 & E0 & E).
      rewrite sbytes_call in C.
      destruct (apply_call_one fa f (zlen pre + swidth (SCall n f) - 4) (pre ++ opcode INS_CALL :: le32 n) (code_of hole L) (le32 (hole f)) s s1)
        as (D & S & _); [apply le32_len|apply F|rewrite C; rewrite <- !app_assoc; reflexivity| |exact E0|].
      { change (swidth (SCall n f)) with 9. rewrite zlen_app, zlen_cons, le32_len. lia. }
      apply (One s1); [|exact S|exact E]. rewrite D, sbytes_call, <- !app_assoc. reflexivity.
    + cbn [walk] in E. apply bind_ok in E. destruct E as (s1 & E0 & E).
      rewrite sbytes_fn in C.
      destruct (apply_call_one fa f (zlen pre + swidth (SFn f) - 4) (pre ++ [opcode INS_NEW_FUNC]) (code_of hole L) (le32 (hole f)) s s1)
        as (D & S & _); [apply le32_len|apply F|rewrite C; rewrite <- !app_assoc; reflexivity| |exact E0|].
      { change (swidth (SFn f)) with 5. rewrite zlen_app, zlen_cons, zlen_nil. lia. }
      apply (One s1); [|exact S|exact E]. rewrite D, sbytes_fn, <- !app_assoc. reflexivity.
Qed.

(** ** The program *)
Lemma map_get_entry (l : list (bytes * Z)) n v : NoDup (map fst l) -> In (n, v) l -> map_get l n = v.
Proof.
  induction l as [|[k w] l IH]; intros N I; [contradiction|]. cbn [map fst map_get] in *. inversion N; subst.
  destruct I as [E|I].
  - inversion E; subst. now rewrite bytes_eqb_refl.
  - destruct (bytes_eqb k n) eqn:B; [|auto]. apply bytes_eqb_eq in B. subst.
    exfalso. apply H1. apply in_map_iff. exists (n, v). auto.
Qed.
Lemma layout_names m sizes sx ng items : forall base k,
  map (fun p => fd_name (pl_f p)) (layout m sizes sx ng items base k) = flat_map item_names items.
Proof.
  induction items as [|i items IH]; intros base k; [reflexivity|]. destruct i; cbn [layout map flat_map item_names app pl_f]; auto.
  f_equal. apply IH.
Qed.

Section Generated.
  Variable items0 : list ritem.
  Variable n : nat.
  Variable prog : program_t.
  Variable sx : bytes -> Z.

  Definition g_items : list ritem := add_init items0 n.
  Definition g_slots : slots := fst (offsets g_items).
  Definition g_sizes : slots := snd (offsets g_items).
  Definition g_ng : Z := zlen (filter is_var_global g_items).
  Definition g_layout : list place := layout g_slots g_sizes sx g_ng g_items 0 0.
  Definition g_code_of (p : place) : list sins := pl_code g_slots g_sizes sx g_ng p.
  (** the address of a function, by its name *)
  Definition g_fa (f : fdecl) : Z :=
    map_get (rev (map (fun p => (fd_name (pl_f p), pl_base p)) g_layout)) (fd_name f).

  Record generated : Prop := Generated {
    gd_code : p_code prog = code_of g_fa (flat_map g_code_of g_layout);
    gd_funs : p_functions prog = map (placed_function g_slots g_sizes sx g_ng) g_layout;
    gd_strs : p_strings prog = flat_map item_strs g_items;
    gd_globals : p_globals prog = flat_map (item_globals g_slots) g_items;
    gd_fa : forall p, In p g_layout -> g_fa (pl_f p) = pl_base p;
    gd_sys : exists x, p_syscalls prog = fold_left syscall_of g_items [] ++ map unbound x
  }.

  Lemma generate_ok : generate items0 n = Ok prog -> sx_ok sx (p_syscalls prog) -> NoDup (flat_map item_names g_items) -> generated.
  Proof.
    unfold generate. fold g_items. destruct (offsets g_items) as [m sizes] eqn:O. intros E XX N.
    apply bind_ok in E. destruct E as (s1 & E1 & E). apply bind_ok in E. destruct E as (s2 & E2 & E).
    inversion E as [Ep]. clear E.
    assert (Em : m = g_slots) by (unfold g_slots; now rewrite O).
    assert (Es : sizes = g_sizes) by (unfold g_sizes; now rewrite O).
    fold g_ng in E1. subst m sizes. set (s0 := Cg _ _ _ _ _ _ _ _) in E1.
    assert (S12 : g_sys s2 = g_sys s1).
    { clear -E2. revert E2. generalize (g_fix s1). intros l. revert s1. induction l as [|x l IH]; intros s1 E; cbn [walk] in E.
      - inversion E; reflexivity.
      - apply bind_ok in E. destruct E as (s3 & E & E'). rewrite (IH _ E'). unfold apply_call in E.
        destruct (fd_line (fst x)); [|discriminate]. unfold patch in E. apply bind_ok in E. destruct E as (c & _ & E).
        inversion E; reflexivity. }
    assert (Psys : p_syscalls prog = g_sys s2) by (rewrite <- Ep; reflexivity).
    assert (X : sx_ok sx (g_sys s1)). { rewrite <- S12, <- Psys. exact XX. }
    destruct (walk_items g_slots g_sizes sx g_ng g_items s0 s1 [] E1 X eq_refl N) as (A1 & A2 & A3 & A4 & A5 & A6 & A7).
    cbn [s0 g_globals g_sys g_funs g_code g_strs g_map g_fix app] in *.
    change (pos s0) with 0 in *. change (zlen (g_strs s0)) with 0 in *. change (zlen (@nil bytes)) with 0 in *.
    fold g_layout in *. rewrite app_nil_r in A6.
    assert (D : g_code s2 = [] ++ code_of g_fa (flat_map g_code_of g_layout) /\ same_but_code s1 s2).
    { apply calls_applied; [exact A4| |].
      - intros f. rewrite A6. reflexivity.
      - rewrite A7 in E2. exact E2. }
    destruct D as [D (B1 & B2 & B3 & B4 & B5)].
    constructor.
    - rewrite <- Ep. cbn [p_code]. exact D.
    - rewrite <- Ep. cbn [p_functions]. rewrite B3. exact A3.
    - rewrite <- Ep. cbn [p_strings]. rewrite B4. exact A5.
    - rewrite <- Ep. cbn [p_globals]. rewrite B1. exact A1.
    - intros p I. unfold g_fa. apply map_get_entry.
      + rewrite map_rev, map_map. cbn [fst]. unfold g_layout. rewrite layout_names. apply NoDup_rev. exact N.
      + rewrite <- in_rev. apply in_map_iff. exists p. auto.
    - rewrite <- Ep. cbn [p_syscalls]. rewrite B2. exact A2.
  Qed.
End Generated.

(** Every function of the program has a place. *)
Lemma layout_in m sizes sx ng items f args body lend : In (RFunc f args body lend) items -> forall base k,
  exists p, In p (layout m sizes sx ng items base k) /\ pl_f p = f /\ pl_args p = args /\ pl_body p = body.
Proof.
  induction items as [|i items IH]; intros I base k; [contradiction|]. destruct I as [->|I].
  - cbn [layout]. eexists. split; [left; reflexivity|auto].
  - destruct i; cbn [layout]; auto. destruct (IH I (base + clen (pl_code m sizes sx ng (Place f0 args0 body0 base k)))
      (k + zlen (flat_map sstrs body0))) as (p & H & E). exists p. split; [right; exact H|exact E].
Qed.
Lemma in_layout m sizes sx ng items p : forall base k, In p (layout m sizes sx ng items base k) ->
  exists lend, In (RFunc (pl_f p) (pl_args p) (pl_body p) lend) items.
Proof.
  induction items as [|i items IH]; intros base k I; [contradiction|].
  assert (T : forall b k, In p (layout m sizes sx ng items b k) -> exists lend, In (RFunc (pl_f p) (pl_args p) (pl_body p) lend) (i :: items)).
  { intros b' k' H. destruct (IH _ _ H) as (l & H'). exists l. right. exact H'. }
  destruct i; cbn [layout] in I; eauto. destruct I as [<-|I]; [|eauto]. exists lend. left. reflexivity.
Qed.

(** A place's code and strings are where it says. *)
Lemma layout_code m sizes sx ng fa items p : forall base k, In p (layout m sizes sx ng items base k) ->
  exists pre post, code_of fa (flat_map (pl_code m sizes sx ng) (layout m sizes sx ng items base k)) =
    pre ++ code_of fa (pl_code m sizes sx ng p) ++ post /\ base + zlen pre = pl_base p.
Proof.
  induction items as [|i items IH]; intros base k I; [contradiction|]. destruct i; cbn [layout] in *; eauto.
  cbn [flat_map]. rewrite code_of_app. destruct I as [<-|I].
  - exists []. eexists. split; [reflexivity|]. cbn [pl_base]. rewrite zlen_nil. lia.
  - destruct (IH _ _ I) as (pre & post & E & B). rewrite E. eexists (_ ++ pre), post. split; [rewrite <- app_assoc; reflexivity|].
    rewrite zlen_app, zlen_code_of. lia.
Qed.
Lemma layout_strs m sizes sx ng items p : forall base k, In p (layout m sizes sx ng items base k) ->
  exists pre post, flat_map item_strs items = pre ++ flat_map sstrs (pl_body p) ++ post /\ k + zlen pre = pl_k p.
Proof.
  induction items as [|i items IH]; intros base k I; [contradiction|]. destruct i; cbn [layout flat_map item_strs app] in *; eauto.
  destruct I as [<-|I].
  - exists []. eexists. split; [reflexivity|]. cbn [pl_k]. rewrite zlen_nil. lia.
  - destruct (IH _ _ I) as (pre & post & E & B). rewrite E. eexists (_ ++ pre), post. split; [rewrite <- app_assoc; reflexivity|].
    rewrite zlen_app. lia.
Qed.
(** Different places do not overlap. *)
Lemma layout_after m sizes sx ng items p : forall base k, In p (layout m sizes sx ng items base k) -> base <= pl_base p.
Proof.
  induction items as [|i items IH]; intros base k I; [contradiction|]. destruct i; cbn [layout] in *; eauto.
  destruct I as [<-|I]; [cbn; lia|]. apply IH in I. pose proof (clen_nonneg (pl_code m sizes sx ng (Place f args body base k))). lia.
Qed.
Lemma layout_disjoint m sizes sx ng items : forall base k p q,
  In p (layout m sizes sx ng items base k) -> In q (layout m sizes sx ng items base k) ->
  p = q \/ pl_base p + clen (pl_code m sizes sx ng p) <= pl_base q \/ pl_base q + clen (pl_code m sizes sx ng q) <= pl_base p.
Proof.
  induction items as [|i items IH]; intros base k p q I J; [contradiction|]. destruct i; cbn [layout] in *; eauto.
  destruct I as [<-|I], J as [<-|J]; [auto| | |eauto].
  - right. left. apply layout_after in J. cbn [pl_base]. exact J.
  - right. right. apply layout_after in I. cbn [pl_base]. exact I.
Qed.

(** Looking a function up by an address inside it. *)
Lemma find_pc_layout m sizes sx ng items base k prog p a :
  p_functions prog = map (placed_function m sizes sx ng) (layout m sizes sx ng items base k) ->
  In p (layout m sizes sx ng items base k) ->
  pl_base p <= a < pl_base p + clen (pl_code m sizes sx ng p) ->
  function_find_pc prog a = Some (placed_function m sizes sx ng p).
Proof.
  intros E I R. unfold function_find_pc. rewrite E.
  pose proof (fun q => layout_disjoint m sizes sx ng items base k p q I) as D.
  revert I D. generalize (layout m sizes sx ng items base k). intros l I D.
  induction l as [|q l IH]; [contradiction|]. cbn [map find].
  destruct (D q (or_introl eq_refl)) as [->|O].
  - cbn [f_start f_end placed_function]. replace ((pl_base q <=? a) && (a <? pl_base q + clen (pl_code m sizes sx ng q))) with true by lia. reflexivity.
  - cbn [f_start f_end placed_function].
    replace ((pl_base q <=? a) && (a <? pl_base q + clen (pl_code m sizes sx ng q))) with false by lia.
    apply IH.
    + destruct I as [->|I]; [|exact I]. pose proof (clen_nonneg (pl_code m sizes sx ng p)). lia.
    + intros q' J. apply D. right. exact J.
Qed.
