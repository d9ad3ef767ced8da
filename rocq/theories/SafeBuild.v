(** Every program the compiler makes keeps the stack discipline of [SafeSpec]. *)
From Coq Require Import ZArith List Bool Lia ZifyBool.
From Verif Require Import Base BaseFacts F32 Instr InstrSpec Program VM AbsHeap VmSpec CgSpec CgCode Ast Sema SemaSpec SemaFacts Codegen
  CgLayout CgFlow CgLink CgWell ConstFacts BuildSpec CompileSpec CompileFacts Source Parser Optimize Build ParseFine SafeSpec CgHeight PropertiesBuiltins.
Import ListNotations.
Open Scope Z_scope.

(** ** What the declarations say *)
Definition registered (regs : list (bytes * Z)) (d : decl) : Prop :=
  match d with
  | DF f => if fd_sys f then exists a, In (fd_name f, a) regs /\ fd_var f = (a <? 0) /\ fd_arity f = Z.to_nat a else fd_var f = false
  | DV _ => True
  end.
Definition from_regs (regs : list (bytes * Z)) (c : child) : Prop :=
  match c with CSys x a => In (x, a) regs | CItem _ => True end.
Lemma number_from regs cs : Forall (from_regs regs) cs -> forall n, Forall (registered regs) (map fst (fst (number cs n))).
Proof.
  induction 1 as [|c cs H F IH]; intros n; cbn [number]; [constructor|].
  destruct (head_decl c n) as [d|] eqn:D; [|apply IH]. specialize (IH (Datatypes.S n)). destruct (number cs (Datatypes.S n)) as [r k].
  cbn [fst map] in *. constructor; [|exact IH].
  destruct c as [x a|[x l oe|x l oe|x l args body lend|p l]]; cbn [head_decl from_regs] in *; inversion D; subst; cbn [registered]; auto; try reflexivity.
  exists a. auto.
Qed.
Lemma annotate_from regs addr cs items n : Forall (from_regs regs) cs -> annotate addr cs = Ok (items, n) -> Forall (registered regs) (top_decls items).
Proof.
  unfold annotate. intros F. pose proof (number_from regs cs F 0%nat) as R. destruct (number cs 0) as [ds m] eqn:N. intros E.
  destruct (number_inv _ _ _ _ N) as [HD _].
  assert (T : top_decls items = map fst ds); [|rewrite T; exact R].
  assert (X : Forall2 (child_item (map fst ds)) ds items).
  { eapply each_inv; [|exact E]. eapply Forall_impl; [|exact HD]. cbv beta.
    intros dc H ? ? ? H2. eapply ann_child_inv; eassumption. }
  clear -X. revert X. generalize (map fst ds) at 1. intros g F.
  induction F as [|dc i ds items H F IH]; [reflexivity|].
  cbn [top_decls map]. unfold top_decls in IH. rewrite IH. f_equal. apply H.
Qed.

(** ** What the expressions say *)
Definition fits_call (T : list decl) (e : rexpr) : Prop :=
  match e with
  | RArray _ es => es <> []
  | RIdent (DF f) _ => In (DF f) T
  | RCall _ (RIdent (DF f) _) es => In (DF f) T /\ (fd_var f = true \/ fd_arity f = List.length es)
  | _ => True
  end.
Lemma sema_calls addr cs items n : Forall child_fine cs -> run_sema addr cs = Ok (items, n) ->
  Forall (fits_call (top_decls items)) (program_exprs items).
Proof.
  intros F E. destruct (sema_shape _ _ _ _ F E) as [S _]. pose proof (run_sema_done _ _ _ _ E) as [_ _ _ _ ST _ _ _].
  rewrite Forall_forall in *. intros e I0. pose proof (S _ I0) as Se.
  assert (ID : forall f l, In (RIdent (DF f) l) (program_exprs items) -> In (DF f) (top_decls items)).
  { intros f l I1. destruct (used_program _ _ _ I1) as [sc U]. exact (ST _ U). }
  destruct e as [i v l|f l|b l|l|d l|d l mm lm|l es|l a i|l f es|o l a b|o l a]; cbn [fits_call shape] in *; auto.
  - destruct d; eauto.
  - destruct f as [| | | |[d|f] lf| | | | | |]; auto. split; [|exact Se]. apply (ID f lf).
    unfold program_exprs in *. apply in_flat_map in I0. destruct I0 as (y & Y1 & Y2). apply in_flat_map. exists y. split; [exact Y1|].
    clear -Y2. revert Y2. induction y using rexpr_nested; cbn [inside]; intros [Y|Y]; try discriminate; try contradiction; right.
    + apply in_flat_map in Y. destruct Y as (z & Z1 & Z2). apply in_flat_map. rewrite Forall_forall in H. eauto.
    + apply in_app_iff in Y. apply in_app_iff. destruct Y; auto.
    + inversion Y; subst. now left.
    + apply in_app_iff in Y. apply in_app_iff. destruct Y as [Y|Y]; [auto|right]. apply in_flat_map in Y. destruct Y as (z & Z1 & Z2).
      apply in_flat_map. rewrite Forall_forall in H. eauto.
    + apply in_app_iff in Y. apply in_app_iff. destruct Y; auto.
    + auto.
Qed.
Lemma optimize_calls on items n items' n' T :
  Forall (fits_call T) (program_exprs items) -> Forall machine_literal (program_exprs items) ->
  run_optimize on items n = Ok (items', n') ->
  Forall (fits_call T) (program_exprs items') /\ Forall2 (fun i j => match i, j with
    | RSys f, RSys f' => f = f' | RGlobal d _, RGlobal d' _ => d = d' | RFunc f args _ _, RFunc f' args' _ _ => f = f' /\ args = args' | _, _ => False end) items items'.
Proof.
  intros H1 L E.
  assert (G : Forall (fine (fun _ => True) (fits_call T)) items).
  { apply Forall_forall. intros i I0. unfold fine. apply Forall_forall. intros e I1. unfold good_in. apply Forall_forall. intros x I2.
    assert (J : In x (program_exprs items)).
    { unfold program_exprs. apply in_flat_map. exists e. split; [|exact I2]. apply in_flat_map. eauto. }
    rewrite Forall_forall in L, H1. split; [auto|]. split; [|apply H1; exact J]. destruct x as [| | | |[|]| | | | | |]; auto. }
  assert (Qi : forall i v l, fits_call T (RInt i v l)) by (intros; exact Logic.I).
  assert (Qs : forall w e, fits_call T e -> fits_call T (set_expr w e)).
  { intros w e S. destruct e as [i v l|f l|b l|l|d l|d l mm lm|l es|l a i|l f es|o l a b|o l a]; cbn [set_expr fits_call] in *; auto.
    - destruct es; cbn [map]; congruence.
    - destruct f as [| | | |[d|f] lf| | | | | |]; cbn [set_expr] in *; auto. rewrite map_length. exact S. }
  destruct (run_optimize_kept (fun _ => True) (fits_call T) Qi Qs _ _ _ _ _ G E) as [K _]. split.
  - assert (G2 : Forall (good (fun _ => True) (fits_call T)) (program_exprs items')).
    { unfold program_exprs. apply Forall_flat. apply Forall_flat. exact (kept_fine _ _ _ _ K). }
    eapply Forall_impl; [|exact G2]. intros e (_ & _ & S). exact S.
  - clear -K. induction K as [|i j is js [A _] K IH]; constructor; auto. destruct i, j; try contradiction; try exact A. destruct A as (-> & -> & _). auto.
Qed.

(** ** Looking a syscall up by name *)
Lemma index_of_found l x : In x (map s_name l) -> forall i, exists s, znth l (index_of (map s_name l) x i - i) = Some s /\ s_name s = x.
Proof.
  induction l as [|y l IH]; cbn [map In index_of]; [contradiction|]. intros H i. destruct (bytes_eqb (s_name y) x) eqn:B.
  - apply bytes_eqb_eq in B. exists y. rewrite Z.sub_diag. auto.
  - destruct H as [H|H]; [subst; rewrite bytes_eqb_refl in B; discriminate|].
    destruct (IH H (i + 1)) as (s & S & N). exists s. split; [|exact N]. 
    pose proof (znth_some _ _ _ S) as R. rewrite <- S. rewrite !znth_nth_error by lia.
    replace (Z.to_nat (index_of (map s_name l) x (i + 1) - i)) with (Datatypes.S (Z.to_nat (index_of (map s_name l) x (i + 1) - (i + 1)))) by lia.
    reflexivity.
Qed.
Lemma found_in l x : forall i, find_syscall l x i <> None -> In x (map s_name l).
Proof.
  induction l as [|y l IH]; intros i; cbn [find_syscall map In]; [congruence|]. destruct (bytes_eqb (s_name y) x) eqn:B; [left; apply bytes_eqb_eq; exact B|].
  intros H. right. eapply IH. exact H.
Qed.

(** ** Whole programs *)
Lemma build_verified fuel fs addr on regs m p q : build fuel fs addr on regs m = Ok (Some p) -> fits p -> bound p q -> honest regs q -> verified q.
Proof.
  intros B Fit Bnd Ho. destruct (build_parts _ _ _ _ _ _ _ B) as (src & m' & items & n & items' & n' & E1 & E2 & P1 & E3 & P2 & E4).
  set (cs := map (fun x => CSys (fst x) (snd x)) regs ++ map CItem src) in *.
  assert (CF : Forall child_fine cs).
  { apply Forall_app. split; apply Forall_forall; intros c I; apply in_map_iff in I; destruct I as (x & <- & I); [exact Logic.I|].
    apply (proj1 (Forall_forall _ _) (parse_sources_fine _ _ _ _ _ _ _ _ (Forall_nil _) (Forall_nil _) E1) _ I). }
  assert (FR : Forall (from_regs regs) cs).
  { apply Forall_app. split; apply Forall_forall; intros c I; apply in_map_iff in I; destruct I as (x & <- & I); [destruct x; exact I|exact Logic.I]. }
  pose proof (run_sema_done _ _ _ _ E2) as [(r & r1 & n0 & A & FO & IN) [T1 _] _ _ _ _ _ _].
  assert (RG : Forall (registered regs) (top_decls items)).
  { rewrite (inlined_tops _ _ _ IN), (folded_tops _ _ _ FO). eapply annotate_from; eassumption. }
  destruct (optimize_calls _ _ _ _ _ (top_decls items) (sema_calls _ _ _ _ CF E2) (po_literals _ _ P1) E3) as [CE K].
  (* the declarations of the final tree are those of the analysed one *)
  assert (SYS : forall f, In (DF f) (top_decls items) -> fd_sys f = true -> In (fd_name f) (map s_name (p_syscalls q))).
  { intros f I S. apply top_sys in I; [|exact T1|exact S].
    assert (I' : In (fd_name f) (sys_names items')).
    { clear -I K. revert I. unfold sys_names. induction K as [|i j is js H K IH]; cbn [flat_map]; [auto|]. rewrite !in_app_iff. intros [I|I]; [left|right; auto].
      destruct i, j; try contradiction; try exact I. cbn [In] in *. subst. exact I. }
    rewrite (bo_syscalls _ _ Bnd). destruct (gd_sys _ _ _ _ (made items' n' p q E4 P2 Bnd)) as (x & ->). rewrite map_app. apply in_app_iff. left.
    apply (found_in _ _ 0), syscalls_found. left. unfold sys_names, g_items, add_init in *. rewrite flat_map_app. apply in_app_iff. left. exact I'. }
  assert (USR : forall f, In (DF f) (top_decls items) -> fd_sys f = false ->
    exists g, function_at q (address q (fd_name f)) g /\ num_args g = Z.of_nat (fd_arity f)).
  { intros f I S. 
    assert (I' : exists args body lend, In (RFunc f args body lend) items' /\ fd_arity f = List.length args).
    { clear -I K T1 S. revert I. unfold top_decls. induction K as [|i j is js H K IH]; cbn [map In]; [tauto|]. inversion T1; subst.
      intros [I|I]; [|destruct (IH H3 I) as (args & body & lend & I1 & I2); exists args, body, lend; auto].
      destruct i as [g|d oe|g args body lend], j as [g'|d' oe'|g' args' body' lend']; try contradiction; cbn [top_decl item_ok] in *; inversion I; subst; [congruence|].
      destruct H as [-> ->]. exists args', body', lend'. split; [now left|apply H2]. }
    destruct I' as (args & body & lend & I1 & I2).
    destruct (layout_in (g_slots items' n') (g_sizes items' n') (sys_index q) (g_ng items' n') (g_items items' n') f args body lend) with (base := 0) (k := 0)
      as (pl & Kp & X1 & X2 & _).
    { unfold g_items, add_init. apply in_app_iff. left. exact I1. }
    exists (placed_function (g_slots items' n') (g_sizes items' n') (sys_index q) (g_ng items' n') pl). split; [split|].
    - rewrite (bo_functions _ _ Bnd), (gd_funs _ _ _ _ (made items' n' p q E4 P2 Bnd)). apply in_map. exact Kp.
    - cbn [f_start placed_function]. rewrite <- X1. symmetry. apply (address_place items' n' p q E4 P2 Bnd). exact Kp.
    - unfold num_args. cbn [placed_function f_args]. rewrite zlen_map, X2, I2. reflexivity. }
  assert (SB : forall f, In (DF f) (top_decls items) -> fd_sys f = true -> exists a fn, bound_to q (sys_index q (fd_name f)) fn /\
    fd_var f = (a <? 0) /\ fd_arity f = Z.to_nat a /\ if a <? 0 then forall k, 0 <= k -> reads fn k else reads fn a).
  { intros f I S. rewrite Forall_forall in RG. pose proof (RG _ I) as R. cbn [registered] in R. rewrite S in R. destruct R as (a & R1 & R2 & R3).
    destruct (index_of_found _ _ (SYS f I S) 0) as (s & Z1 & Z2). rewrite Z.sub_0_r in Z1.
    destruct (Ho _ _ _ R1 (znth_In _ _ _ Z1) Z2) as (fn & -> & H). exists a, fn. split; [exists (fd_name f); exact Z1|auto]. }
  apply (generated_verified items' n' p q E4 P2 Fit Bnd).
  eapply Forall_impl; [|exact CE]. intros e H.
  destruct e as [i v l|f l|b l|l|d l|d l mm lm|l es|l a i|l f es|o l a b|o l a]; cbn [fits_call callee] in *; auto.
  - destruct d as [d|f]; auto. destruct (fd_sys f) eqn:S.
    + destruct (SB f H S) as (a & fn & X & _). exists fn. exact X.
    + destruct (USR f H S) as (g & X & _). exists g. exact X.
  - destruct f as [| | | |[d|f] lf| | | | | |]; auto. destruct H as [H C]. destruct (fd_sys f) eqn:S.
    + destruct (SB f H S) as (a & fn & X & V & Ar & R). exists fn. split; [exact X|]. destruct (a <? 0) eqn:L; [apply R, zlen_nonneg|].
      destruct C as [C|C]; [congruence|]. replace (zlen es) with a; [exact R|]. unfold zlen. lia.
    + destruct (USR f H S) as (g & X & N). exists g. split; [exact X|]. rewrite N. unfold zlen.
      rewrite Forall_forall in RG. pose proof (RG _ H) as R. cbn [registered] in R. rewrite S in R. destruct C as [C|C]; [congruence|]. now rewrite C.
Qed.

(** ** The driver keeps its promise *)
Lemma driver_honest p : honest (builtin_arity ++ driver_arity) (driver_resolve p).
Proof.
  intros name a s I J N. apply In_nth_error in J. destruct J as (k & J). assert (J' : znth (p_syscalls (driver_resolve p)) (Z.of_nat k) = Some s) by (rewrite znth_nth_error, Nat2Z.id by lia; exact J).
  clear J. rename J' into J. set (i := Z.of_nat k) in *. rewrite driver_resolve_nth in J.
  destruct (znth (p_syscalls p) i) as [[nm c]|]; cbn [option_map] in J; [|discriminate]. assert (J1 : bind_builtin (fold_left bind_one driver_map (Sysc nm c)) = s) by congruence. clear J.
  assert (X : exists fn, bind_builtin (fold_left bind_one driver_map (Sysc name c)) = Sysc name (Some fn) /\
    if a <? 0 then forall n, 0 <= n -> reads fn n else reads fn a).
  { clear - I. unfold builtin_arity, driver_arity in I; cbn [In app] in I;
    repeat (destruct I as [I|I]; [pose proof (f_equal fst I) as In_; pose proof (f_equal snd I) as Ik_; cbn [fst snd] in In_, Ik_;
      clear I; subst name a; eexists; split; [vm_compute; reflexivity|cbn; auto]|]); contradiction. }
  assert (NM : nm = name).
  { assert (G : forall m s, s_name (fold_left bind_one m s) = s_name s).
    { induction m as [|x m IH]; intros s0; cbn [fold_left]; [reflexivity|]. rewrite IH. unfold bind_one. destruct (bytes_eqb _ _); reflexivity. }
    assert (G2 : forall s, s_name (bind_builtin s) = s_name s) by (intros s0; unfold bind_builtin; destruct (map_find _ _); reflexivity).
    rewrite <- N, <- J1, G2, G. reflexivity. }
  subst nm. destruct X as (fn & X1 & X2). exists fn. rewrite X1 in J1. auto.
Qed.
