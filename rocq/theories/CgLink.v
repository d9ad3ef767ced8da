(** Proof support: what [generate] produces satisfies the assumptions of the
    simulation. *)
From Coq Require Import ZArith List Bool Lia ZifyBool.
From Verif Require Import Base BaseFacts F32 Instr InstrSpec InstrProofs Program VM AbsHeap VmSpec VmFacts Ast Sema SemaSpec SemaFacts Codegen
  SrcSem SrcFacts FloatBits CgCode CgLayout CgSlots CgStep CgSys CgSim CgSpec CgOps.
Import ListNotations.
Open Scope Z_scope.
Open Scope list_scope.

(** ** Small things *)
Lemma decls_local x : decls_stmt x = local_decls x.
Proof. reflexivity. Qed.
Lemma decls_block_local b : decls_block b = flat_map local_decls b.
Proof. unfold decls_block. induction b as [|x b IH]; cbn [flat_map]; [reflexivity|]. now rewrite decls_local, IH. Qed.

Lemma index_find l x : forall i, index_of (map s_name l) x i = match find_syscall l x i with Some j => j | None => 0 end.
Proof.
  induction l as [|y l IH]; intros i; cbn [map index_of find_syscall]; [reflexivity|].
  destruct (bytes_eqb (s_name y) x); [reflexivity|apply IH].
Qed.
Lemma index_range l x : forall i, 0 <= i -> 0 <= index_of l x i <= i + zlen l.
Proof.
  induction l as [|y l IH]; intros i P; cbn [index_of]; [pose proof (zlen_nonneg (@nil bytes)); lia|]. rewrite zlen_cons.
  pose proof (zlen_nonneg l). destruct (bytes_eqb y x); [lia|]. specialize (IH (i + 1) ltac:(lia)). lia.
Qed.
Lemma code_of_ext fa fb l : (forall f, fa f = fb f) -> code_of fa l = code_of fb l.
Proof.
  intros H. unfold code_of. induction l as [|x l IH]; cbn [flat_map]; [reflexivity|]. rewrite IH. f_equal.
  destruct x; unfold sbytes, linked_ins; rewrite ?H; reflexivity.
Qed.

Lemma gvars_app a b : gvars (a ++ b) = gvars a ++ gvars b.
Proof. apply flat_map_app. Qed.
Lemma gvars_vars l : gvars l = map fst (global_vars l).
Proof.
  unfold gvars, global_vars. induction l as [|i l IH]; [reflexivity|]. cbn [flat_map]. rewrite map_app, <- IH. f_equal.
  destruct i; try reflexivity. destruct (vd_const d); reflexivity.
Qed.
Lemma count_vars l : zlen (filter is_var_global l) = zlen (global_vars l).
Proof.
  unfold global_vars. induction l as [|i l IH]; [reflexivity|]. cbn [flat_map]. rewrite zlen_app, <- IH. cbn [filter].
  destruct i as [|d e|]; cbn [is_var_global]; try reflexivity.
  destruct (vd_const d); cbn [negb]; [reflexivity|]. rewrite zlen_cons. apply Z.add_comm.
Qed.

(** ** The last instruction of a function *)
Lemma cblock_app m sx sp a : forall b base k, cblock m sx sp (a ++ b) base k =
  cblock m sx sp a base k ++ cblock m sx sp b (base + clen (cblock m sx sp a base k)) (k + zlen (flat_map sstrs a)).
Proof.
  induction a as [|x a IH]; intros b base k; cbn [app flat_map].
  - change (cblock m sx sp [] base k) with (@nil sins). change (clen []) with 0; change (zlen (@nil bytes)) with 0; rewrite !Z.add_0_r. reflexivity.
  - rewrite !cblock_cons, IH, <- app_assoc, clen_app, zlen_app. rewrite <- !Z.add_assoc. reflexivity.
Qed.
Lemma ends_in_return_last b : ends_in_return b = true -> exists a l oe, b = a ++ [RReturn l oe].
Proof.
  induction b as [|x b IH]; [discriminate|]. destruct b as [|y b].
  - destruct x; try discriminate. intros _. exists [], l, e. reflexivity.
  - intros H. destruct IH as (a & l & oe & E); [destruct x; exact H|]. exists (x :: a), l, oe. now rewrite E.
Qed.
Lemma cfunc_ends m sizes sx ng f args body base k : exists p i,
  cfunc m sizes sx ng f args body base k = p ++ [SI (I1 INS_RET i)].
Proof.
  unfold cfunc, epilogue. destruct (negb (is_init f) && ends_in_return body) eqn:E.
  - apply andb_true_iff in E. destruct E as [_ E]. destruct (ends_in_return_last _ E) as (a & l & oe & ->).
    rewrite cblock_app, app_nil_r.
    set (P := prologue _ _ _). set (A := cblock _ _ _ a _ _). set (B := base + clen P + clen A). set (K := k + _).
    change (cblock m sx (space sizes f args) [RReturn l oe] B K) with
      ((match oe with Some e => cexpr m sx e K | None => [SI (I0 INS_NEW_NONE)] end ++ [SI (I1 INS_RET (space sizes f args))]) ++ []).
    rewrite app_nil_r, !app_assoc. eexists _, _. reflexivity.
  - exists (prologue sizes ng f ++ cblock m sx (space sizes f args) body (base + clen (prologue sizes ng f)) k ++ [SI (I1 INS_NEW_INT 0)]), (space sizes f args).
    rewrite <- !app_assoc. reflexivity.
Qed.
Lemma cfunc_pos m sizes sx ng f args body base k : 1 <= clen (cfunc m sizes sx ng f args body base k).
Proof.
  destruct (cfunc_ends m sizes sx ng f args body base k) as (p & i & ->). rewrite clen_app, clen1, sw1 by reflexivity.
  pose proof (clen_nonneg p). lia.
Qed.

Section Link.
  Variables (items : list ritem) (n : nat) (prog q : program_t).
  Hypothesis Gen : generate items n = Ok prog.
  Hypothesis Pok : program_ok items n.
  Hypothesis Fit : fits prog.
  Hypothesis Bnd : bound prog q.

  Let m := g_slots items n.
  Let sizes := g_sizes items n.
  Let ng := g_ng items n.
  Let sx := sys_index q.
  Let fa := fun f => address q (fd_name f).
  Let faddr := entry items q.
  Let lay := g_layout items n sx.
  Notation all := (g_items items n).
  Let finit := FDecl n init_name None false false 0.

  Lemma names_all : NoDup (flat_map item_names all).
  Proof.
    unfold g_items, add_init. rewrite flat_map_app. cbn [flat_map item_names app fd_name].
    pose proof (po_names _ _ Pok) as N. unfold function_names in N.
    change (flat_map item_names items) with (function_names items).
    change (flat_map _ items) with (function_names items) in N.
    inversion N as [|? ? H1 H2]; subst. clear N. induction (function_names items) as [|y t IH]; cbn [app].
    - constructor; [intros []|constructor].
    - inversion H2; subst. constructor.
      + rewrite in_app_iff. intros [H|[H|[]]]; [auto|]. subst. apply H1. left. reflexivity.
      + apply IH; [intros H; apply H1; right; exact H|assumption].
  Qed.
  Lemma sx_good : sx_ok sx (p_syscalls prog).
  Proof.
    intros x i E. unfold sx, sys_index. rewrite (bo_syscalls _ _ Bnd), index_find, E. reflexivity.
  Qed.
  Lemma made : generated items n prog sx.
  Proof. apply generate_ok; [exact Gen|exact sx_good|exact names_all]. Qed.

  Lemma address_place p : In p lay -> address q (fd_name (pl_f p)) = pl_base p.
  Proof.
    intros I. unfold address. rewrite (bo_functions _ _ Bnd), (gd_funs _ _ _ _ made). fold lay.
    pose proof names_all as N. rewrite <- (layout_names m sizes sx ng all 0 0) in N.
    change (layout m sizes sx ng all 0 0) with lay in N. revert I N. generalize lay. intros l I N.
    induction l as [|y l IH]; [contradiction|]. cbn [map find placed_function f_name] in *. inversion N; subst.
    destruct I as [->|I]; [rewrite bytes_eqb_refl; reflexivity|].
    destruct (bytes_eqb (fd_name (pl_f y)) (fd_name (pl_f p))) eqn:E; [|auto].
    apply bytes_eqb_eq in E. exfalso. apply H1. rewrite E. apply in_map_iff. exists p. auto.
  Qed.
  Lemma fa_same f : fa f = g_fa items n sx f.
  Proof.
    destruct (in_dec (list_eq_dec Z.eq_dec) (fd_name f) (map (fun p => fd_name (pl_f p)) lay)) as [I|I].
    - apply in_map_iff in I. destruct I as (p & E & I). unfold fa. rewrite <- E, address_place by exact I.
      unfold g_fa. rewrite <- E. symmetry. exact (gd_fa _ _ _ _ made p I).
    - unfold fa, address. rewrite (bo_functions _ _ Bnd), (gd_funs _ _ _ _ made). fold lay. unfold g_fa. fold lay.
      replace (find (fun x => bytes_eqb (f_name x) (fd_name f)) (map (placed_function (g_slots items n) (g_sizes items n) sx (g_ng items n)) lay)) with (@None function_t).
      + symmetry. rewrite <- map_rev. assert (I2 : ~ In (fd_name f) (map (fun p => fd_name (pl_f p)) (rev lay))).
        { rewrite map_rev. intros H. apply I. now apply in_rev in H. }
        revert I2. generalize (rev lay). intros l I2. induction l as [|y l IH]; [reflexivity|]. cbn [map map_get] in *.
        destruct (bytes_eqb (fd_name (pl_f y)) (fd_name f)) eqn:E; [apply bytes_eqb_eq in E; exfalso; apply I2; left; exact E|].
        apply IH. intros H. apply I2. right. exact H.
      + symmetry. revert I. generalize lay. intros l I. induction l as [|y l IH]; [reflexivity|]. cbn [map find placed_function f_name] in *.
        destruct (bytes_eqb (fd_name (pl_f y)) (fd_name f)) eqn:E; [apply bytes_eqb_eq in E; exfalso; apply I; left; exact E|].
        apply IH. intros H. apply I. right. exact H.
  Qed.
  Lemma q_code : p_code q = code_of fa (flat_map (g_code_of items n sx) lay).
  Proof. rewrite (bo_code _ _ Bnd), (gd_code _ _ _ _ made). fold lay. symmetry. apply code_of_ext, fa_same. Qed.
  Lemma q_size : zlen (p_code q) <= i32_max. Proof. rewrite (bo_code _ _ Bnd). apply Fit. Qed.
  Lemma q_strings : p_strings q = flat_map item_strs all.
  Proof. rewrite (bo_strings _ _ Bnd). apply made. Qed.

  (** ** Ranges *)
  Lemma place_code p : In p lay -> exists pre suf, p_code q = pre ++ code_of fa (g_code_of items n sx p) ++ suf /\ zlen pre = pl_base p.
  Proof.
    intros I. destruct (layout_code m sizes sx ng fa all p 0 0 I) as (pre & suf & E & B).
    exists pre, suf. rewrite q_code. split; [exact E|lia].
  Qed.
  Lemma place_range p : In p lay -> 0 <= pl_base p /\ pl_base p + clen (g_code_of items n sx p) <= i32_max.
  Proof.
    intros I. destruct (place_code p I) as (pre & suf & E & B). pose proof q_size as S. rewrite E, !zlen_app, zlen_code_of in S.
    pose proof (zlen_nonneg pre). pose proof (zlen_nonneg suf). lia.
  Qed.
  Lemma Rx x : in_i32 (sx x) = true.
  Proof.
    unfold sx, sys_index. pose proof (index_range (map s_name (p_syscalls q)) x 0 ltac:(lia)) as R.
    rewrite (bo_syscalls _ _ Bnd), zlen_map in *. pose proof (fi_syscalls _ Fit). apply small_i32. lia.
  Qed.
  Lemma sx_pos x : 0 <= sx x.
  Proof. apply (index_range (map s_name (p_syscalls q)) x 0). lia. Qed.
  Lemma fa_range f : 0 <= fa f <= i32_max.
  Proof.
    unfold fa, address. destruct (find _ (p_functions q)) as [x|] eqn:E; [|unfold i32_max; lia].
    apply find_some in E. destruct E as [I _]. rewrite (bo_functions _ _ Bnd), (gd_funs _ _ _ _ made) in I.
    apply in_map_iff in I. destruct I as (p & <- & I). destruct (place_range p I) as [A B]. cbn [f_start placed_function].
    pose proof (clen_nonneg (g_code_of items n sx p)). lia.
  Qed.
  Lemma Rf f : in_i32 (fa f) = true. Proof. apply small_i32, fa_range. Qed.
  Lemma fits_all : Forall fits_item all.
  Proof.
    apply Forall_forall. intros i I. destruct i as [|d e|f args body lend]; try exact Logic.I. cbn [fits_item].
    destruct (layout_in m sizes sx ng all f args body lend I 0 0) as (p & J & E1 & E2 & E3).
    pose proof (fi_frames _ Fit) as X. rewrite (gd_funs _ _ _ _ made), Forall_forall in X.
    specialize (X _ (in_map _ _ _ J)). cbn [f_args f_locals placed_function] in X. rewrite !zlen_map, E2, E3 in X. exact X.
  Qed.
  Lemma gvars_globals : zlen (gvars all) <= zlen (p_globals prog).
  Proof.
    rewrite (gd_globals _ _ _ _ made). unfold gvars. generalize all. intros l. induction l as [|i l IH]; cbn [flat_map]; [apply Z.le_refl|].
    rewrite !zlen_app. destruct i as [|d e|]; cbn [item_globals]; [exact IH| |exact IH].
    change (zlen [ident_of (g_slots items n) d]) with 1. destruct (vd_const d); [change (zlen (@nil nat)) with 0|change (zlen [vd_id d]) with 1]; lia.
  Qed.
  Lemma Rm id : in_i32 (assoc m id) = true.
  Proof.
    apply assoc_range. unfold m, g_slots, offsets. apply off_items_range; [constructor|exact fits_all|lia|].
    pose proof gvars_globals. pose proof (fi_globals _ Fit). lia.
  Qed.

  (** ** Slots *)
  Lemma ids_variables l : flat_map item_ids l = map vd_id (variables l).
  Proof.
    induction l as [|i l IH]; [reflexivity|]. unfold variables. cbn [flat_map]. fold (variables l). rewrite map_app, IH. f_equal.
    destruct i; cbn [item_ids]; [reflexivity|reflexivity|]. rewrite map_app, decls_block_local. reflexivity.
  Qed.
  Lemma init_bids l : bids (flat_map init_assign l) = [].
  Proof.
    unfold bids. induction l as [|i l IH]; [reflexivity|]. cbn [flat_map]. rewrite flat_map_app, map_app, IH.
    destruct i as [|d [e|]|]; cbn [init_assign]; try reflexivity. destruct (vd_const d); reflexivity.
  Qed.
  Lemma ids_all : flat_map item_ids all = map vd_id (variables items).
  Proof.
    unfold g_items, add_init. rewrite flat_map_app, ids_variables. cbn [flat_map item_ids map app]. rewrite init_bids, app_nil_r. reflexivity.
  Qed.
  Lemma nodes_all : NoDup (fun_ids all).
  Proof.
    unfold g_items, add_init, fun_ids. rewrite flat_map_app. cbn [flat_map app fd_id].
    change (flat_map _ items) with (function_nodes items).
    pose proof (po_functions _ _ Pok) as N. pose proof (po_next _ _ Pok) as L.
    induction (function_nodes items) as [|y t IH]; cbn [app]; [constructor; [intros []|constructor]|].
    inversion N; subst. inversion L; subst. constructor; [|auto].
    rewrite in_app_iff. intros [H|[H|[]]]; [auto|lia].
  Qed.
  Lemma slots_good : slots_ok all m sizes.
  Proof. unfold m, sizes, g_slots, g_sizes, offsets. apply off_items_ok; [rewrite ids_all; apply Pok|apply nodes_all]. Qed.
  Lemma slots_globals j id : nth_error (gvars all) j = Some id -> assoc m id = Z.of_nat j.
  Proof. intros E. unfold m, g_slots, offsets. erewrite off_items_globals; [|rewrite ids_all; apply Pok|exact E]. lia. Qed.
  Lemma gvars_all : gvars all = map fst (global_vars items).
  Proof. unfold g_items, add_init. rewrite gvars_app, gvars_vars. apply app_nil_r. Qed.
  Lemma ng_count : ng = zlen (global_vars items).
  Proof. unfold ng, g_ng, g_items, add_init. rewrite filter_app. cbn [filter is_var_global]. rewrite app_nil_r. apply count_vars. Qed.
  Lemma globals_glob_ok st : globals_of items st -> glob_ok m (map fst (global_vars items)) st.
  Proof.
    intros E. split; [|exact E]. intros i id v Z. pose proof (znth_some _ _ _ Z) as B. rewrite (slots_globals (Z.to_nat i) id); [lia|].
    rewrite gvars_all, <- E, nth_error_map. rewrite znth_nth_error in Z by lia. rewrite Z. reflexivity.
  Qed.

  (** ** Well-formed code *)
  Lemma in_all f args body lend : In (RFunc f args body lend) all ->
    In (RFunc f args body lend) items \/ (f = finit /\ args = [] /\ body = flat_map init_assign items).
  Proof.
    unfold g_items, add_init. rewrite in_app_iff. intros [H|[H|[]]]; [left; exact H|]. right. inversion H. auto.
  Qed.
  Lemma init_exprs l : incl (flat_map exprs_stmt (flat_map init_assign l)) (flat_map exprs_item l).
  Proof.
    induction l as [|i l IH]; cbn [flat_map]; [intros x []|]. rewrite flat_map_app. intros x. rewrite !in_app_iff.
    intros [H|H]; [left|right; apply IH, H]. destruct i as [|d [e|]|]; cbn [init_assign flat_map] in H; try contradiction.
    destruct (vd_const d); cbn [flat_map exprs_stmt app] in H; [contradiction|]. exact H.
  Qed.
  Lemma body_exprs f args body lend : In (RFunc f args body lend) all ->
    incl (flat_map exprs_stmt body) (flat_map exprs_item items).
  Proof.
    intros I. destruct (in_all _ _ _ _ I) as [J|(_ & _ & ->)]; [|apply init_exprs].
    intros x X. apply in_flat_map. exists (RFunc f args body lend). auto.
  Qed.
  Lemma exprs_all (P : rexpr -> Prop) l : Forall P (program_exprs items) -> incl l (flat_map exprs_item items) ->
    Forall P (flat_map inside l).
  Proof.
    intros H I. apply Forall_forall. intros x X. rewrite Forall_forall in H. apply H.
    apply in_flat_map in X. destruct X as (e & E & X). apply in_flat_map. exists e. auto.
  Qed.

  Lemma place_item p : In p lay -> exists lend, In (RFunc (pl_f p) (pl_args p) (pl_body p) lend) all.
  Proof. apply in_layout. Qed.
  Lemma place_strs p : In p lay -> exists pre suf, p_strings q = pre ++ flat_map sstrs (pl_body p) ++ suf /\ zlen pre = pl_k p.
  Proof.
    intros I. destruct (layout_strs m sizes sx ng all p 0 0 I) as (pre & suf & E & B).
    exists pre, suf. rewrite q_strings. split; [exact E|lia].
  Qed.
  Lemma size_range p : In p lay -> 0 <= fsize sizes (pl_f p) /\ 0 <= space sizes (pl_f p) (pl_args p) <= i32_max.
  Proof.
    intros I. destruct (place_item p I) as (lend & J). pose proof (so_size _ _ _ slots_good _ _ _ _ J) as S.
    pose proof fits_all as F. rewrite Forall_forall in F. specialize (F _ J). cbn [fits_item] in F.
    unfold space, fsize. pose proof (zlen_nonneg (pl_args p)). lia.
  Qed.
  Lemma place_jumps p : In p lay -> jto fa (pl_base p) (g_code_of items n sx p) (g_code_of items n sx p).
  Proof.
    intros I. unfold g_code_of, pl_code, cfunc. fold m sizes ng.
    apply jto_app; [|apply jto_app].
    - apply jto_nj. unfold prologue. destruct (is_init (pl_f p)); [constructor; [reflexivity|constructor]|].
      destruct (0 <? fsize sizes (pl_f p)); [constructor; [reflexivity|constructor]|constructor].
    - apply (jto_skip _ 0 eq_refl), jto_more, jump_block, small_i32, (size_range p I).
    - apply jto_nj. unfold epilogue. destruct (negb (is_init (pl_f p)) && ends_in_return (pl_body p)); [constructor|].
      constructor; [reflexivity|]. constructor; [reflexivity|constructor].
  Qed.
  Lemma mark_range base l t : mark base l t -> base <= t <= base + clen l.
  Proof. intros (a & b & -> & ->). rewrite clen_app. pose proof (clen_nonneg a). pose proof (clen_nonneg b). lia. Qed.
  Lemma place_wf p : In p lay -> Forall (W fa) (g_code_of items n sx p).
  Proof.
    intros I. destruct (place_range p I) as [R1 R2]. destruct (place_item p I) as (lend & J).
    destruct (size_range p I) as [S1 S2].
    assert (W00 : Forall (W0 fa) (g_code_of items n sx p)).
    { unfold g_code_of, pl_code, cfunc. fold m sizes ng. apply Forall_app. split; [|apply Forall_app; split].
      - unfold prologue. destruct (is_init (pl_f p)).
        + apply W0_one. split; [reflexivity|]. rewrite ng_count. apply small_i32. split; [apply zlen_nonneg|].
          pose proof gvars_globals as G. rewrite gvars_all, zlen_map in G. pose proof (fi_globals _ Fit). lia.
        + destruct (0 <? fsize sizes (pl_f p)); [|constructor]. apply W0_one. split; [reflexivity|]. apply small_i32.
          unfold space in S2. pose proof (zlen_nonneg (pl_args p)). lia.
      - destruct (place_strs p I) as (pre & suf & E & K). pose proof (fi_strings _ Fit) as FS.
        rewrite <- (bo_strings _ _ Bnd), E, !zlen_app in FS. pose proof (zlen_nonneg pre). pose proof (zlen_nonneg suf).
        apply wf_block.
        + apply small_i32, S2.
        + apply Forall_forall. intros x _. apply wf_stmt; [exact Rm|exact Rx|exact Rf|apply small_i32, S2].
        + apply exprs_all; [apply Pok|eapply body_exprs; exact J].
        + lia.
        + lia.
        + unfold g_code_of, pl_code, cfunc in R2. fold m sizes ng in R2. rewrite !clen_app in R2.
          repeat match type of R2 with context [clen ?l] => lazymatch goal with _ : 0 <= clen l |- _ => fail | _ => pose proof (clen_nonneg l) end end.
          lia.
      - unfold epilogue. destruct (negb (is_init (pl_f p)) && ends_in_return (pl_body p)); [constructor|].
        apply Forall_cons_app; [apply W0_one; split; reflexivity|]. apply W0_one. split; [reflexivity|]. apply small_i32, S2. }
    pose proof (place_jumps p I) as JJ. unfold jto in JJ. rewrite Forall_forall in *. intros x X.
    specialize (W00 x X). specialize (JJ x X). destruct (jump_target (linked_ins fa x)) as [t|] eqn:T; [|apply W00, T].
    specialize (JJ t eq_refl). apply mark_range in JJ.
    assert (in_i32 t = true) by (apply small_i32; lia).
    unfold W. destruct x as [[i|i o|i o1 o2]| |]; cbn [linked_ins jump_target] in *; try discriminate.
    destruct i; inversion T; subst; (split; [reflexivity|assumption]).
  Qed.
  Lemma place_code_at p : In p lay -> code_at q fa (pl_base p) (g_code_of items n sx p).
  Proof. intros I. split; [apply place_code; exact I|apply place_wf; exact I]. Qed.
  Lemma init_place : exists p, In p lay /\ pl_f p = finit /\ pl_args p = [] /\ pl_body p = flat_map init_assign items.
  Proof.
    apply (layout_in m sizes sx ng all finit [] (flat_map init_assign items) no_line).
    unfold g_items, add_init. apply in_app_iff. right. left. reflexivity.
  Qed.
  Lemma q_len : 4 < zlen (p_code q).
  Proof.
    destruct init_place as (p & I & E1 & E2 & E3). destruct (place_code p I) as (pre & suf & E & _). rewrite E, !zlen_app, zlen_code_of.
    unfold g_code_of, pl_code, cfunc. rewrite E1. change (prologue (g_sizes items n) (g_ng items n) finit) with [SI (I1 INS_GLOBALS (g_ng items n))].
    rewrite !clen_app, clen1, sw1 by reflexivity. repeat match goal with |- context [clen ?l] => lazymatch goal with _ : 0 <= clen l |- _ => fail | _ => pose proof (clen_nonneg l) end end.
    pose proof (zlen_nonneg pre). pose proof (zlen_nonneg suf). lia.
  Qed.

  (** ** The functions *)
  Lemma functs_in f args body : In (f, args, body) (functs items) -> exists lend, In (RFunc f args body lend) items.
  Proof.
    unfold functs. intros I. apply in_flat_map in I. destruct I as (i & I & J). destruct i; cbn [funct] in J; try contradiction.
    destruct J as [J|[]]. inversion J; subst. eauto.
  Qed.
  Lemma in_functs f args body lend : In (RFunc f args body lend) items -> In (f, args, body) (functs items).
  Proof. intros I. unfold functs. apply in_flat_map. eexists. split; [exact I|]. left. reflexivity. Qed.
  Lemma functs_nodes : map (fun x => fd_id (fst (fst x))) (functs items) = function_nodes items.
  Proof.
    unfold functs, function_nodes. clear. induction items as [|i l IH]; [reflexivity|]. cbn [flat_map]. rewrite map_app, IH. f_equal.
    destruct i; reflexivity.
  Qed.
  Lemma by_id_node f args body : In (f, args, body) (functs items) -> by_id items (fd_id f) = Some (f, args, body).
  Proof.
    unfold by_id. pose proof functs_nodes as N. pose proof (po_functions _ _ Pok) as D. rewrite <- N in D. revert D.
    generalize (functs items). intros l D I. induction l as [|y l IH]; [contradiction|]. cbn [map find] in *. inversion D; subst.
    destruct I as [->|I]; [cbn [fst]; rewrite PeanoNat.Nat.eqb_refl; reflexivity|].
    destruct (Nat.eqb (fd_id (fst (fst y))) (fd_id f)) eqn:E; [|auto]. apply PeanoNat.Nat.eqb_eq in E.
    exfalso. apply H1. rewrite E. apply in_map_iff. exists (f, args, body). auto.
  Qed.
  Lemma faddr_fa f args body : In (f, args, body) (functs items) -> faddr (fd_id f) = fa f.
  Proof. intros I. unfold faddr, entry. rewrite (by_id_node _ _ _ I). reflexivity. Qed.
  Lemma function_place f args body : In (f, args, body) (functs items) ->
    exists p, In p lay /\ pl_f p = f /\ pl_args p = args /\ pl_body p = body /\ pl_base p = faddr (fd_id f).
  Proof.
    intros I. destruct (functs_in _ _ _ I) as (lend & J).
    destruct (layout_in m sizes sx ng all f args body lend) with (base := 0) (k := 0) as (p & K & E1 & E2 & E3).
    { unfold g_items, add_init. apply in_app_iff. left. exact J. }
    exists p. repeat split; try assumption. rewrite (faddr_fa _ _ _ I). unfold fa. rewrite <- E1. symmetry. apply address_place. exact K.
  Qed.
  Lemma not_init f args body lend : In (RFunc f args body lend) items -> is_init f = false.
  Proof.
    intros J. destruct (is_init f) eqn:E; [|reflexivity]. exfalso. unfold is_init in E. apply bytes_eqb_eq in E.
    pose proof (po_names _ _ Pok) as N. inversion N as [|? ? N1 N2]. apply N1. unfold function_names. apply in_flat_map.
    eexists. split; [exact J|]. left. exact E.
  Qed.

  Lemma eok_1 e : declared items e -> machine_literal e -> eok1 fa faddr sx e.
  Proof.
    intros D L. destruct e as [| | | |[d|f]| | | | | |]; cbn [eok1 declared machine_literal] in *; try exact Logic.I.
    - apply operand_back, L.
    - destruct (fd_sys f); [apply sx_pos|]. destruct (D eq_refl) as (args & body & lend & I). apply in_functs in I.
      split; [symmetry; eapply faddr_fa; exact I|apply fa_range].
  Qed.
  Lemma eok_in l : incl l (flat_map exprs_item items) -> Forall (eok fa faddr sx) l.
  Proof.
    intros I. apply Forall_forall. intros e E. unfold eok. apply Forall_forall. intros x X.
    assert (P : In x (program_exprs items)) by (apply in_flat_map; exists e; auto).
    pose proof (po_declared _ _ Pok) as A. pose proof (po_literals _ _ Pok) as B. rewrite Forall_forall in A, B. apply eok_1; auto.
  Qed.
  Lemma all_functions f args body : In (f, args, body) (functs items) -> fok q fa faddr m sizes sx ng f args body.
  Proof.
    intros I. destruct (function_place _ _ _ I) as (p & K & E1 & E2 & E3 & E4). destruct (functs_in _ _ _ I) as (lend & J).
    assert (J' : In (RFunc f args body lend) all) by (unfold g_items, add_init; apply in_app_iff; left; exact J).
    split; [eapply not_init; exact J|].
    pose proof (place_code_at p K) as C. unfold g_code_of, pl_code in C. rewrite E1, E2, E3, E4 in C.
    destruct (place_strs p K) as (pre & suf & S1 & S2). rewrite E3 in S1.
    exists (pl_k p), (placed_function m sizes sx ng p). split; [exact C|]. split; [exists pre, suf; auto|].
    split; [|split; [|split; [|split; [|split]]]].
    - apply find_pc_layout with (items := all) (base := 0) (k := 0).
      + rewrite (bo_functions _ _ Bnd). apply made.
      + exact K.
      + rewrite <- E4. unfold pl_code. pose proof (cfunc_pos m sizes sx ng (pl_f p) (pl_args p) (pl_body p) (pl_base p) (pl_k p)). lia.
    - unfold num_args. cbn [f_args placed_function]. rewrite zlen_map, E2. reflexivity.
    - intros i d Z. pose proof (znth_some _ _ _ Z). rewrite znth_nth_error in Z by lia.
      rewrite (so_args _ _ _ slots_good _ _ _ _ _ _ J' Z). lia.
    - exact (so_body _ _ _ slots_good _ _ _ _ J').
    - apply (so_size _ _ _ slots_good _ _ _ _ J').
    - apply Forall_forall. intros x X. apply eok_in. intros e E. apply (body_exprs _ _ _ _ J'). apply in_flat_map. eauto.
  Qed.
End Link.
