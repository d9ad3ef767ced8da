(** Proof support: from the simulation on configurations to the vocabulary of
    CgSpec.v. *)
From Coq Require Import ZArith List Bool Lia ZifyBool.
From Verif Require Import Base BaseFacts F32 Instr InstrSpec InstrProofs Program VM AbsHeap VmSpec VmFacts Ast Sema SemaSpec SemaFacts Codegen
  SrcSem SrcFacts FloatBits CgCode CgLayout CgSlots CgStep CgSys CgSim CgSpec CgOps CgLink.
Import ListNotations.
Open Scope Z_scope.
Open Scope list_scope.

(** ** Reaching *)
Lemma ev_reaches q Q c : ev q Q c -> forall s, core s = c -> reaches q (fun s' => Q (core s')) s.
Proof.
  induction 1 as [c H|c H|c c' F S H IH]; intros s E.
  - exists s. split; [constructor|]. left. now rewrite E.
  - exists s. split; [constructor|]. right. rewrite <- E in H. exact H.
  - destruct (S s E) as (s1 & S1 & E1). destruct (IH s1 E1) as (s2 & S2 & D). exists s2. split; [|exact D].
    econstructor; [|exact S1|exact S2]. rewrite <- E in F. exact F.
Qed.
Lemma reaches_weak p (Q R : machine -> Prop) s : (forall t, Q t -> R t) -> reaches p Q s -> reaches p R s.
Proof. intros H (s' & S & [D|D]); exists s'; auto. Qed.
Lemma leads_reaches q s c c' : core s = c -> leads q c c' -> reaches q (fun t => core t = c') s.
Proof. intros E L. eapply (ev_reaches q (fun t => t = c')); [|exact E]. apply L. now apply ev_now. Qed.
Lemma crash_reaches q tail post s c x st : core s = c -> crash q tail post c x st ->
  reaches q (fun t => exists a stk frs, core t = conf_err tail post st x a stk frs) s.
Proof.
  intros E L. eapply (ev_reaches q (fun t => exists a stk frs, t = conf_err tail post st x a stk frs)); [|exact E].
  apply L. intros. eauto.
Qed.
Lemma core_of st extra others a stk frs s : holds st extra others s -> running a stk frs s ->
  core s = conf extra others st a stk frs.
Proof. intros [H1 H2 H3 H4 H5] [R1 R2 R3 R4 R5]. unfold core, conf. congruence. Qed.
Lemma of_core st extra others a stk frs s : core s = conf extra others st a stk frs ->
  holds st extra others s /\ running a stk frs s.
Proof. unfold core, conf. intros E. injection E; intros. split; constructor; assumption. Qed.
Lemma of_core_ret st extra others fr rest frs v s : core s = conf_ret extra others st fr rest frs v ->
  holds st extra others s /\ returned fr v rest frs s.
Proof. unfold core, conf_ret. intros E. injection E; intros. split; constructor; assumption. Qed.
Lemma of_core_err st extra others x a stk frs s : core s = conf_err extra others st x a stk frs ->
  holds st extra others s /\ CgSpec.failed x s.
Proof. unfold core, conf_err. intros E. injection E; intros. split; [constructor|split]; assumption. Qed.

(** ** Frames *)
Lemma activation_frame m r L rest fr : activation m r L rest fr -> frame_ok m r L rest fr.
Proof.
  intros [A B C D]. constructor; try assumption. intros i id o Z. pose proof (znth_some _ _ _ Z) as R.
  apply D. rewrite znth_rev by lia. rewrite <- Z. f_equal. lia.
Qed.
Lemma stack_fstk tmps r L rest : stack_of tmps r L rest = tmps ++ fstk r L rest.
Proof. reflexivity. Qed.

(** ** Pieces of code *)
Lemma calls_linked q l : forall pre code linked, code = pre ++ code_of hole l ->
  link q (fixes (zlen pre) l) code = Ok linked ->
  linked = pre ++ code_of (fun f => address q (fd_name f)) l.
Proof.
  set (fa := fun f => address q (fd_name f)).
  induction l as [|x l IH]; intros pre code linked C E.
  - unfold link in E. cbn [fixes walk] in E. inversion E; subst. reflexivity.
  - assert (One : forall c1, c1 = (pre ++ sbytes fa x) ++ code_of hole l ->
              link q (fixes (zlen pre + swidth x) l) c1 = Ok linked -> linked = pre ++ code_of fa (x :: l)).
    { intros c1 C1 E1. rewrite <- (zlen_sbytes fa), <- zlen_app in E1. rewrite (IH _ _ _ C1 E1), <- app_assoc. reflexivity. }
    change (code_of hole (x :: l)) with (sbytes hole x ++ code_of hole l) in C.
    destruct x as [x|n f|f]; cbn [fixes app] in E.
    + apply (One code); [rewrite C, <- app_assoc; reflexivity|exact E].
    + unfold link in E. cbn [walk] in E. apply bind_ok in E. destruct E as (c1 & E0 & E). fold (link q (fixes (zlen pre + swidth (SCall n f)) l) c1) in E.
      cbn [fst snd] in E0. rewrite sbytes_call in C.
      replace (zlen pre + swidth (SCall n f) - 4) with (zlen (pre ++ opcode INS_CALL :: le32 n)) in E0
        by (rewrite sw_call, zlen_app, zlen_cons, le32_len; lia).
      assert (C2 : code = (pre ++ opcode INS_CALL :: le32 n) ++ le32 (hole f) ++ code_of hole l) by (rewrite C, <- !app_assoc; reflexivity).
      rewrite C2, fixup_middle in E0 by apply le32_len. inversion E0; subst c1.
      eapply One; [|exact E]. rewrite sbytes_call, <- !app_assoc. reflexivity.
    + unfold link in E. cbn [walk] in E. apply bind_ok in E. destruct E as (c1 & E0 & E). fold (link q (fixes (zlen pre + swidth (SFn f)) l) c1) in E.
      cbn [fst snd] in E0. rewrite sbytes_fn in C.
      replace (zlen pre + swidth (SFn f) - 4) with (zlen (pre ++ [opcode INS_NEW_FUNC])) in E0
        by (rewrite sw_fn, zlen_app, zlen_cons; change (zlen (@nil Z)) with 0; lia).
      assert (C2 : code = (pre ++ [opcode INS_NEW_FUNC]) ++ le32 (hole f) ++ code_of hole l) by (rewrite C, <- !app_assoc; reflexivity).
      rewrite C2, fixup_middle in E0 by apply le32_len. inversion E0; subst c1.
      eapply One; [|exact E]. rewrite sbytes_fn, <- !app_assoc. reflexivity.
Qed.

Lemma zfirstn_zskipn_mid {A} (l : list A) a b : 0 <= a <= b ->
  l = zfirstn a l ++ zskipn a (zfirstn b l) ++ zskipn b l.
Proof.
  intros H. rewrite <- (zfirstn_zskipn l b) at 1. rewrite <- (zfirstn_zskipn (zfirstn b l) a) at 1.
  rewrite <- app_assoc. f_equal. revert a b H. induction l as [|x l IH]; intros a b H; [reflexivity|]. cbn [zfirstn].
  destruct (b <=? 0) eqn:B; [replace (a <=? 0) with true by lia; cbn [zfirstn]; try rewrite ?B; reflexivity|]. cbn [zfirstn].
  destruct (a <=? 0) eqn:Q; [reflexivity|]. f_equal. apply IH. lia.
Qed.
Lemma zskipn_len {A} (l : list A) k : 0 <= k -> zskipn k l <> [] -> k < zlen l.
Proof.
  intros P H. destruct (Z_lt_ge_dec k (zlen l)) as [L|L]; [exact L|]. exfalso. apply H. apply zskipn_all. lia.
Qed.
Lemma zfirstn_len {A} (l : list A) k : zlen (zfirstn k l) <= zlen l.
Proof. rewrite <- (zfirstn_zskipn l k) at 2. rewrite zlen_app. pose proof (zlen_nonneg (zskipn k l)). lia. Qed.

Section Run.
  Variables (items : list ritem) (n : nat) (prog q : program_t).
  Hypothesis Gen : generate items n = Ok prog.
  Hypothesis Pok : program_ok items n.
  Hypothesis Fit : fits prog.
  Hypothesis Bnd : bound prog q.

  Let m := g_slots items n.
  Let sizes := g_sizes items n.
  Let ng := g_ng items n.
  Let sx := sys_index q.
  Let fa := fun f => address q (fd_name f).
  Let faddr := entry items q.
  Let keys := map fst (global_vars items).

  Lemma slots_same : slots_of items n = m. Proof. reflexivity. Qed.
  Lemma loaded_sx s s' : loaded q s s' -> sx_ok sx (g_sys s').
  Proof.
    intros L x i E. destruct (lo_syscalls _ _ _ L) as (more & M). unfold sx, sys_index. rewrite M.
    clear -E.
    revert E. generalize 0. induction (g_sys s') as [|y l IH]; intros k E; cbn [map app index_of find_syscall] in *; [discriminate|].
    destruct (bytes_eqb (s_name y) x); [congruence|]. now apply IH.
  Qed.
  Lemma loaded_code s s' l t : adds s s' l t -> 1 <= clen l -> loaded q s s' ->
    exists pre suf, p_code q = pre ++ code_of fa l ++ suf /\ zlen pre = pos s.
  Proof.
    intros A P [(calls & linked & F & K & Zc) _ _]. pose proof (adds_pos _ _ _ _ A) as PP.
    destruct A as (_ & _ & _ & C & _ & _ & X). rewrite X in F. apply app_inv_head in F. subst calls.
    apply (calls_linked q l (g_code s) (g_code s') linked C) in K. rewrite K in Zc. change (pos s) with (zlen (g_code s)) in Zc at 2.
    rewrite zskipn_app in Zc.
    assert (0 <= pos s) by apply zlen_nonneg.
    exists (zfirstn (pos s) (p_code q)), (zskipn (pos s') (p_code q)). split.
    - fold fa in Zc. rewrite <- Zc. apply zfirstn_zskipn_mid. lia.
    - apply zlen_zfirstn. split; [lia|]. pose proof (zfirstn_len (p_code q) (pos s')).
      assert (pos s < zlen (zfirstn (pos s') (p_code q))); [|lia]. apply zskipn_len; [lia|]. fold fa in Zc. rewrite Zc. intros N.
      apply (f_equal zlen) in N. rewrite zlen_code_of in N. change (zlen (@nil Z)) with 0 in N. lia.
  Qed.

  Section Expr.
    Variables (e : rexpr) (s s' : cg).
    Hypothesis De : Forall (declared items) (inside e).
    Hypothesis Le : Forall machine_literal (inside e).
    Hypothesis Ge : gen_expr m e s = Ok s'.
    Hypothesis Lo : loaded q s s'.
    Let k := zlen (g_strs s).

    Lemma expr_adds : adds s s' (cexpr m sx e k) (estrs e).
    Proof. apply gen_expr_good; [exact Ge|apply (loaded_sx _ _ Lo)]. Qed.
    Lemma expr_strs : strs_at q k (estrs e).
    Proof.
      destruct (lo_strings _ _ _ Lo) as (more & M). destruct expr_adds as (_ & _ & _ & _ & S & _). rewrite S, <- app_assoc in M.
      exists (g_strs s), more. auto.
    Qed.
    Lemma expr_code : code_at q fa (pos s) (cexpr m sx e k).
    Proof.
      destruct (loaded_code _ _ _ _ expr_adds (clen_cexpr _ _ _ _) Lo) as (pre & suf & E & B). split; [exists pre, suf; auto|].
      apply wf_expr.
      - apply (Rm items n prog q Gen Pok Fit Bnd).
      - apply (Rx items n prog q Fit Bnd).
      - apply (Rf items n prog q Gen Pok Fit Bnd).
      - exact Le.
      - apply zlen_nonneg.
      - destruct expr_strs as (a & b & E1 & E2). pose proof (fi_strings _ Fit) as FS. rewrite <- (bo_strings _ _ Bnd), E1, !zlen_app in FS.
        pose proof (zlen_nonneg b). lia.
      - pose proof (fi_code _ Fit) as FC. rewrite <- (bo_code _ _ Bnd), E, !zlen_app, zlen_code_of in FC.
        pose proof (zlen_nonneg suf). pose proof (zlen_nonneg pre). lia.
    Qed.
    Lemma expr_eok : eok fa faddr sx e.
    Proof.
      unfold eok. rewrite Forall_forall in *. intros x X. apply (eok_1 items n prog q Gen Pok Fit Bnd); auto.
    Qed.
    Lemma expr_end : pos s' = pos s + clen (cexpr m sx e k).
    Proof. apply (adds_pos _ _ _ _ expr_adds). Qed.
  End Expr.

  Lemma sim extra others fuel :
    E q items fa faddr m sx extra others keys fuel /\ Fn q items faddr m sx extra others keys fuel.
  Proof.
    destruct (simulates q items fa faddr m sizes sx ng extra others keys (q_len items n prog q Gen Pok Bnd)
      (all_functions items n prog q Gen Pok Fit Bnd) fuel) as (H1 & _ & H3 & _). split; assumption.
  Qed.

  (** ** Expressions and functions *)
  Lemma run_expression extra others fuel e s s' r locals rest fr frs tmps st t :
    Forall (declared items) (inside e) -> Forall machine_literal (inside e) ->
    gen_expr m e s = Ok s' -> loaded q s s' -> globals_of items st ->
    activation m r locals rest fr -> holds st extra others t ->
    running (pos s) (stack_of tmps r locals rest) (fr :: frs) t ->
    match run_expr items faddr sx (vm_sys q) fuel r e st with
    | Done (v, st') => globals_of items st' /\
        reaches q (fun t' => holds st' extra others t' /\
                     running (pos s') (v :: stack_of tmps r locals rest) (fr :: frs) t') t
    | Error x st' => reaches q (fun t' => holds st' extra others t' /\ CgSpec.failed x t') t
    | _ => True
    end.
  Proof.
    intros D L G Lo Gl A Ho Ru.
    destruct (sim extra others fuel) as [S _].
    pose proof (S r e st (pos s) (zlen (g_strs s)) tmps locals rest fr frs (activation_frame _ _ _ _ _ A)
      (globals_glob_ok items n Pok st Gl) (expr_code _ _ _ L G Lo) (expr_strs _ _ _ G Lo) (expr_eok _ D L)) as H.
    rewrite <- !stack_fstk in H. pose proof (core_of _ _ _ _ _ _ _ Ho Ru) as C.
    destruct (run_expr items faddr sx (vm_sys q) fuel r e st) as [[v st']|x st'| |]; try exact I.
    - destruct H as [[_ H1] H2]. split; [exact H1|]. eapply reaches_weak; [|exact (leads_reaches _ _ _ _ C H2)].
      intros t' E. apply of_core in E. rewrite (expr_end e s s' G Lo). exact E.
    - eapply reaches_weak; [|exact (crash_reaches _ _ _ _ _ _ _ C H)]. intros t' (a & stk & frs' & E).
      apply of_core_err in E. exact E.
  Qed.
  Lemma function_ev extra others fuel f args body vs st rest fr frs t :
    In (f, args, body) (functs items) -> globals_of items st -> fr_sp fr = zlen rest + zlen vs ->
    holds st extra others t -> running (fa f) (rev vs ++ rest) (fr :: frs) t ->
    match run_call items faddr sx (vm_sys q) fuel (f, args, body) vs st with
    | Done (v, st') => globals_of items st' /\ leads q (core t) (conf_ret extra others st' fr rest frs v)
    | Error x st' => crash q extra others (core t) x st'
    | _ => True
    end.
  Proof.
    intros If Gl Sp Ho Ru. destruct (sim extra others fuel) as [_ S].
    pose proof (S f args body vs st rest fr frs If (globals_glob_ok items n Pok st Gl) Sp) as H.
    pose proof (faddr_fa items n q Pok _ _ _ If) as FA. fold faddr in FA. rewrite FA in H.
    rewrite (core_of _ _ _ _ _ _ _ Ho Ru).
    destruct (run_call items faddr sx (vm_sys q) fuel (f, args, body) vs st) as [[v st']|x st'| |]; try exact I; [|exact H].
    destruct H as [[_ H1] H2]. split; [exact H1|exact H2].
  Qed.
  Lemma run_function extra others fuel f args body vs st rest fr frs t :
    In (f, args, body) (functs items) -> globals_of items st -> fr_sp fr = zlen rest + zlen vs ->
    holds st extra others t -> running (fa f) (rev vs ++ rest) (fr :: frs) t ->
    match run_call items faddr sx (vm_sys q) fuel (f, args, body) vs st with
    | Done (v, st') => globals_of items st' /\
        reaches q (fun t' => holds st' extra others t' /\ returned fr v rest frs t') t
    | Error x st' => reaches q (fun t' => holds st' extra others t' /\ CgSpec.failed x t') t
    | _ => True
    end.
  Proof.
    intros If Gl Sp Ho Ru. pose proof (function_ev extra others fuel f args body vs st rest fr frs t If Gl Sp Ho Ru) as H.
    destruct (run_call items faddr sx (vm_sys q) fuel (f, args, body) vs st) as [[v st']|x st'| |]; try exact I.
    - destruct H as [H1 H2]. split; [exact H1|]. eapply reaches_weak; [|exact (leads_reaches _ _ _ _ eq_refl H2)].
      intros t' E. apply of_core_ret in E. exact E.
    - eapply reaches_weak; [|exact (crash_reaches _ _ _ _ _ _ _ eq_refl H)]. intros t' (a & stk & frs' & E).
      apply of_core_err in E. exact E.
  Qed.

  (** ** Initial values of the globals *)
  Lemma init_runs extra others fuel rest fr frs : fr_sp fr = zlen rest -> forall l st base k,
    incl (flat_map exprs_item l) (flat_map exprs_item items) ->
    glob_ok m keys st -> code_at q fa base (cblock m sx 0 (flat_map init_assign l) base k) ->
    strs_at q k (flat_map sstrs (flat_map init_assign l)) ->
    match init_from items faddr sx (vm_sys q) fuel l st with
    | Done st' => glob_ok m keys st' /\
        leads q (conf extra others st base rest (fr :: frs))
                (conf extra others st' (base + clen (cblock m sx 0 (flat_map init_assign l) base k)) rest (fr :: frs))
    | Error x st' => crash q extra others (conf extra others st base rest (fr :: frs)) x st'
    | _ => True
    end.
  Proof.
    intros Sp. pose proof (q_len items n prog q Gen Pok Bnd) as QL.
    assert (F0 : frame_ok m (Env [] []) [] rest fr).
    { constructor; cbn [v_args v_locals]; try (intros; discriminate); try reflexivity.
      change (zlen (@nil (nat * aval))) with 0. lia. }
    induction l as [|i l IH]; intros st base k Inc G C X; cbn [init_from flat_map] in *.
    - split; [exact G|]. change (cblock m sx 0 [] base k) with (@nil sins). change (clen []) with 0. rewrite Z.add_0_r. apply leads_refl.
    - assert (Inc2 : incl (flat_map exprs_item l) (flat_map exprs_item items)) by (intros y Y; apply Inc, in_app_iff; auto).
      destruct i as [f|d [e|]|f args body lend]; cbn [init_assign app] in *; try (apply IH; assumption).
      destruct (vd_const d) eqn:K; cbn [app] in *; [apply IH; assumption|].
      rewrite cblock_cons in *. cbn [flat_map sstrs] in X. cbn [sstrs] in *. apply code_at_app in C. destruct C as [C1 C2].
      cbn [cstmt] in C1. apply code_at_app in C1. destruct C1 as [C1 C3]. apply strs_at_app in X. destruct X as [X1 X2].
      assert (Oe : eok fa faddr sx e).
      { assert (Q : Forall (eok fa faddr sx) [e]); [|inversion Q; assumption]. apply (eok_in items n prog q Gen Pok Fit Bnd).
        intros y [<-|[]]. apply Inc, in_app_iff. left. cbn [exprs_item opt_list]. left. reflexivity. }
      destruct (sim extra others fuel) as [S _].
      pose proof (S (Env [] []) e st base k [] [] rest fr frs F0 G C1 X1 Oe) as H. cbn [app] in H.
      change (fstk (Env [] []) [] rest) with rest in H.
      destruct (run_expr items faddr sx (vm_sys q) fuel (Env [] []) e st) as [[v st1]|x st1| |]; cbn [obind]; try exact Logic.I; [|exact H].
      destruct H as [G1 H1].
      pose proof (write_no_error d v (Env [] []) st1) as NE.
      destruct (write d v (Env [] []) st1) as [[r2 st2]| | |] eqn:Wr; cbn [obind]; try exact Logic.I; [|contradiction]. clear NE.
      destruct (setd_run q fa m sx extra others keys QL _ _ _ _ _ _ _ [] rest fr frs Wr C3 F0 G1) as (L2 & H2 & F2 & ZL & G2 & ZV & ZA).
      assert (R2 : r2 = Env [] []).
      { unfold write in Wr. rewrite K in Wr. destruct (vd_kind d); cbn [v_locals v_args lookup] in Wr; try discriminate.
        destruct (lookup (s_glob st1) (vd_id d)); inversion Wr; reflexivity. }
      assert (L0 : L2 = []) by (destruct L2; [reflexivity|rewrite zlen_cons in ZL; pose proof (zlen_nonneg L2); change (zlen (@nil aval)) with 0 in ZL; lia]).
      subst r2 L2. change (fstk (Env [] []) [] rest) with rest in H2.
      assert (WW : clen (cstmt m sx 0 (RAssign d (vd_line d) e) base k) = clen (cexpr m sx e k) + 5).
      { cbn [cstmt]. rewrite clen_app, clen1, sw_setd. reflexivity. }
      assert (B2 : base + clen (cexpr m sx e k) + 5 = base + clen (cstmt m sx 0 (RAssign d (vd_line d) e) base k)) by lia.
      rewrite B2 in H2. specialize (IH st2 _ _ Inc2 G2 C2 X2).
      destruct (init_from items faddr sx (vm_sys q) fuel l st2) as [st'|x st'| |]; try exact Logic.I.
      + destruct IH as [G3 H3]. split; [exact G3|]. eapply leads_trans; [exact H1|]. eapply leads_trans; [exact H2|].
        eapply leads_pc; [exact H3|]. rewrite clen_app. lia.
      + eapply leads_crash; [exact H1|]. eapply leads_crash; [exact H2|]. exact IH.
  Qed.

  Lemma znth_zrepeat_map (l : list (nat * aval)) : Forall (fun x => snd x = ANone) l -> map snd l = zrepeat ANone (zlen l).
  Proof.
    intros F. unfold zrepeat, zlen. rewrite Znat.Nat2Z.id. induction F as [|x l H F IH]; [reflexivity|].
    cbn [map length repeat]. now rewrite H, IH.
  Qed.
  Lemma globals_none : Forall (fun x => snd x = ANone) (global_vars items).
  Proof.
    unfold global_vars. apply Forall_forall. intros x X. apply in_flat_map in X. destruct X as (i & _ & X).
    destruct i as [|d e|]; try contradiction. destruct (vd_const d); [contradiction|]. destruct X as [<-|[]]. reflexivity.
  Qed.

  (** The globals left over from an earlier program, when this one has none. *)
  Definition left_over (g : list aval) : list aval := if zlen (global_vars items) =? 0 then g else [].

  Lemma init_ev others fuel st rest fr frs t :
    fr_sp fr = zlen rest -> m_heap t = s_heap st -> m_world t = s_world st -> m_pre t = s_new st -> m_post t = others ->
    running (address q init_name) rest (fr :: frs) t ->
    match initial items faddr sx (vm_sys q) fuel st with
    | Done st' => globals_of items st' /\
        leads q (core t) (conf_ret (left_over (m_glob t)) others st' fr rest frs (AS (SInt 0)))
    | Error x st' => crash q (left_over (m_glob t)) others (core t) x st'
    | _ => True
    end.
  Proof.
    intros Sp Hh Hw Hn Hp [R1 R2 R3 R4 R5].
    set (extra := left_over (m_glob t)).
    destruct (init_place items n q) as (p & Ip & E1 & E2 & E3).
    pose proof (place_code_at items n prog q Gen Pok Fit Bnd p Ip) as C.
    destruct (place_strs items n prog q Gen Pok Bnd p Ip) as (pre & suf & Ps & Pk).
    pose proof (address_place items n prog q Gen Pok Bnd p Ip) as Ad. rewrite E1 in Ad. cbn [fd_name] in Ad.
    pose proof (q_len items n prog q Gen Pok Bnd) as QL.
    unfold g_code_of, pl_code, cfunc in C. fold m sizes ng in C. rewrite E1, E2, E3 in *.
    assert (Sz : space sizes (FDecl n init_name None false false 0) [] = 0).
    { destruct (in_layout _ _ _ _ _ _ _ _ Ip) as (lend & J). pose proof (so_size _ _ _ (slots_good items n Pok) _ _ _ _ J) as B.
      rewrite E1, E3 in B. unfold space, fsize. change (zlen (@nil vdecl)) with 0. fold sizes in B.
      assert (Z0 : zlen (flat_map local_decls (flat_map init_assign items)) = 0); [|lia].
      clear. induction items as [|i l IH]; [reflexivity|]. cbn [flat_map]. rewrite flat_map_app, zlen_app, IH.
      destruct i as [|d [e|]|]; try reflexivity. cbn [init_assign]. destruct (vd_const d); reflexivity. }
    rewrite Sz in C. change (prologue sizes ng (FDecl n init_name None false false 0)) with [SI (I1 INS_GLOBALS ng)] in C.
    unfold epilogue in C. change (is_init (FDecl n init_name None false false 0)) with true in C. cbn [negb andb] in C. rewrite Sz in C.
    cbn [app] in C. apply code_at_cons in C. destruct C as [C1 C2].
    rewrite clen1, !sw1 in C2 by reflexivity. apply code_at_app in C2. destruct C2 as [C2 C3].
    apply code_at_cons in C3. destruct C3 as [C3 C4]. rewrite sw1 in C4 by reflexivity.
    apply (code_at_ins q fa sx QL) in C1. apply (code_at_ins q fa sx QL) in C3. apply (code_at_ins q fa sx QL) in C4. cbn [linked_ins] in *.
    assert (Co : core t = Cfg (s_heap st) (m_glob t) (s_world st) (s_new st) others (pl_base p) rest (fr :: frs) None false).
    { unfold core. congruence. }
    assert (NG : 0 <= ng) by (unfold ng; rewrite ng_count; apply zlen_nonneg).
    set (st0 := with_glob st (global_vars items)).
    assert (S0 : cstep q (core t) (conf extra others st0 (pl_base p + 5) rest (fr :: frs))).
    { rewrite Co. pose proof (st_globals q (s_heap st) (m_glob t) (s_world st) (s_new st) others (pl_base p) rest (fr :: frs) ng C1 NG) as S.
      replace (conf extra others st0 (pl_base p + 5) rest (fr :: frs)) with
        (Cfg (s_heap st) (if ng =? 0 then m_glob t else zrepeat ANone ng) (s_world st) (s_new st) others (pl_base p + 5) rest (fr :: frs) None false); [exact S|].
      unfold conf, st0, with_glob. cbn [s_heap s_glob s_world s_new]. f_equal.
      rewrite (znth_zrepeat_map _ globals_none). unfold extra, left_over. unfold ng. rewrite ng_count.
      destruct (zlen (global_vars items) =? 0) eqn:Z0; [|now rewrite app_nil_r].
      replace (zlen (global_vars items)) with 0 by lia. reflexivity. }
    assert (T0 : leads q (core t) (conf extra others st0 (pl_base p + 5) rest (fr :: frs))).
    { apply step_leads; [rewrite Co; reflexivity|exact S0]. }
    assert (G0 : glob_ok m keys st0) by (apply (globals_glob_ok items n Pok); reflexivity).
    assert (X0 : strs_at q (pl_k p) (flat_map sstrs (flat_map init_assign items))) by (exists pre, suf; auto).
    pose proof (init_runs extra others fuel rest fr frs Sp items st0 (pl_base p + 5) (pl_k p) (fun y Y => Y) G0 C2 X0) as H.
    unfold initial. fold st0.
    destruct (init_from items faddr sx (vm_sys q) fuel items st0) as [st'|x st'| |]; try exact Logic.I.
    - destruct H as [[_ G1] H1]. split; [exact G1|].
      eapply leads_trans; [exact T0|]. eapply leads_trans; [exact H1|].
      eapply leads_trans; [apply step_leads; [reflexivity|apply st_int; exact C3]|].
      apply step_leads; [reflexivity|]. apply (st_ret q _ _ _ _ _ _ 0 (AS (SInt 0)) [] rest fr frs C4 eq_refl).
    - eapply leads_crash; [exact T0|exact H].
  Qed.
  Lemma run_init others fuel st rest fr frs t :
    fr_sp fr = zlen rest -> m_heap t = s_heap st -> m_world t = s_world st -> m_pre t = s_new st -> m_post t = others ->
    running (address q init_name) rest (fr :: frs) t ->
    match initial items faddr sx (vm_sys q) fuel st with
    | Done st' => globals_of items st' /\
        reaches q (fun t' => holds st' (left_over (m_glob t)) others t' /\ returned fr (AS (SInt 0)) rest frs t') t
    | Error x st' => reaches q (fun t' => holds st' (left_over (m_glob t)) others t' /\ CgSpec.failed x t') t
    | _ => True
    end.
  Proof.
    intros Sp Hh Hw Hn Hp R. pose proof (init_ev others fuel st rest fr frs t Sp Hh Hw Hn Hp R) as H.
    destruct (initial items faddr sx (vm_sys q) fuel st) as [st'|x st'| |]; try exact Logic.I.
    - destruct H as [H1 H2]. split; [exact H1|]. eapply reaches_weak; [|exact (leads_reaches _ _ _ _ eq_refl H2)].
      intros t' E. apply of_core_ret in E. exact E.
    - eapply reaches_weak; [|exact (crash_reaches _ _ _ _ _ _ _ eq_refl H)]. intros t' (a & stk & frs' & E).
      apply of_core_err in E. exact E.
  Qed.
End Run.
