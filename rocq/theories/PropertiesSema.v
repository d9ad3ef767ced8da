(** Semantic analysis: names, duplicates, argument counts, constants (C30-C33)
    and a finding about names declared in both branches of an [if] (C78). *)
From Coq Require Import ZArith List Bool Lia String.
From Verif Require Import Base BaseFacts F32 Program Source Lexer Ast Parser Sema SemaSpec SemaFacts
  ConstFacts Optimize Codegen Build Instr VM Gc GcSpec Host Demo.
Import ListNotations.
Open Scope Z_scope.
Open Scope list_scope.

(** A small program.

    const K = 3 * 4
    var g = K
    function f(a, b)
      var x = a + K
      if (x < 100)
        var y = f(x, b)
        return y
      end
      return K
    end                                                                      *)
Definition L (n : Z) : line_t := Line 0 n.
Definition ex_tree : list child :=
  [CSys (bs "puts") 1; CSys (bs "print") (-1);
   CItem (TConst (bs "K") (L 1) (Some (EBin BMul (L 1) (EInt 3 (L 1)) (EInt 4 (L 1)))));
   CItem (TVar (bs "g") (L 2) (Some (EIdent (bs "K") (L 2))));
   CItem (TFunc (bs "f") (L 3) [(bs "a", L 3); (bs "b", L 3)]
     [SVar (bs "x") (L 4) (Some (EBin BAdd (L 4) (EIdent (bs "a") (L 4)) (EIdent (bs "K") (L 4))));
      SIf (L 5) (EBin BLt (L 5) (EIdent (bs "x") (L 5)) (EInt 100 (L 5)))
        [SVar (bs "y") (L 6) (Some (ECall (L 6) (EIdent (bs "f") (L 6)) [EIdent (bs "x") (L 6); EIdent (bs "b") (L 6)]));
         SReturn (L 7) (Some (EIdent (bs "y") (L 7)))] None;
      SReturn (L 8) (Some (EIdent (bs "K") (L 8)))] (L 9))].
Definition ex_sema : list ritem :=
  match run_sema Z.of_nat ex_tree with Ok (r, _) => r | _ => [] end.
Example ex_accepted : exists n, run_sema Z.of_nat ex_tree = Ok (ex_sema, n).
Proof. eexists. vm_compute. reflexivity. Qed.

(** ** C30 *)

(** The annotated tree is the program text with names replaced by declarations
    of those names; each is a declaration of the innermost level that declares
    the name. *)
Theorem C30_innermost_declaration : forall addr cs items n,
  annotate addr cs = Ok (items, n) ->
  map plain_item items = flat_map same_child cs /\
  Forall innermost (uses items).
Proof. intros addr cs items n H. apply (annotate_inv addr cs items n H). Qed.

(** All names in the analysed program: still so after constants have been
    replaced.  Functions and constants in use are top-level declarations. *)
Theorem C30_after_analysis : forall addr cs items n,
  run_sema addr cs = Ok (items, n) ->
  Forall innermost (uses items) /\
  (forall d l, In (RIdent d l) (program_exprs items) -> exists sc, In (d, sc) (uses items)) /\
  (forall f sc, In (DF f, sc) (uses items) -> In (DF f) (top_decls items)) /\
  (forall d sc, In (DV d, sc) (uses items) -> vd_const d = true -> In (DV d) (top_decls items)).
Proof.
  intros addr cs items n H. apply run_sema_done in H. destruct H.
  split; [assumption|]. split; [apply used_program|].
  rewrite Forall_forall in sd_settled.
  split; [intros f sc I|intros d sc I C]; specialize (sd_settled _ I); cbn [fst settled] in sd_settled; auto.
Qed.

(** A name is rejected exactly when nothing in scope declares it; so is an
    assignment to, or a loop over, such a name. *)
Theorem C30_undeclared_rejected : forall addr sc x l,
  (forall n, ann_expr addr sc (EIdent x l) n = Err E_unknown_identifier (l_line l) <->
     forall s d, In s sc -> In d s -> decl_name d <> x) /\
  ((forall s d, In s sc -> In d s -> decl_name d <> x) ->
     (forall e n r m, ann_expr addr sc e n = Ok (r, m) ->
        ann_stmt addr (SAssign x l e) (sc, n) = Err E_unknown_variable (l_line l) /\
        (forall i n0 ri, ann_expr addr sc i n0 = Ok (ri, n) ->
           ann_stmt addr (SSetIdx x l i e) (sc, n0) = Err E_unknown_array (l_line l)) /\
        (forall mb lm, ann_stmt addr (SSetMem x l mb lm e) (sc, n) = Err E_unknown_identifier (l_line l))) /\
     (forall l0 a b body n, ann_stmt addr (SFor l0 x l a b body) (sc, n) = Err E_unknown_variable (l_line l))).
Proof.
  intros addr sc x l. split.
  - intros n. rewrite <- (find_decl_none addr). cbn [ann_expr]. destruct (find_decl addr x sc); split; congruence.
  - intros H. apply (find_decl_none addr) in H. split.
    + intros e n r m E. cbn [ann_stmt]. rewrite E. cbn [bind]. unfold find_var. rewrite H.
      split; [reflexivity|]. split; [|reflexivity]. intros i n0 ri E1. rewrite E1. cbn [bind]. rewrite E. reflexivity.
    + intros. cbn [ann_stmt]. unfold find_var. cbn [find_decl lowest]. rewrite H. reflexivity.
Qed.
Example C30_ex :
  map (fun u => (decl_name (fst u), decl_id (fst u), List.length (snd u))) (uses ex_sema) =
  [(bs "a", 7%nat, 2%nat); (bs "x", 9%nat, 3%nat); (bs "x", 9%nat, 3%nat); (bs "b", 8%nat, 3%nat);
   (bs "f", 4%nat, 3%nat); (bs "y", 11%nat, 3%nat)] /\
  ann_expr Z.of_nat [[]; top_decls ex_sema] (EIdent (bs "nope") (L 3)) 0 = Err E_unknown_identifier 3.
Proof. vm_compute. auto. Qed.
Print Assumptions C30_innermost_declaration.
Print Assumptions C30_after_analysis.
Print Assumptions C30_undeclared_rejected.

(** ** C31 *)

(** The check passes exactly when every declaration is new with respect to the
    declarations before it in its own and in the enclosing scopes. *)
Theorem C31_no_duplicates : forall items,
  multi_decls items = Ok tt <-> decl_items [] items.
Proof. exact multi_decls_iff. Qed.

(** So in an accepted program no two functions, syscalls, globals or constants
    share a name, ... *)
Theorem C31_accepted : forall addr cs items n,
  run_sema addr cs = Ok (items, n) ->
  decl_items [] items /\ NoDup (map decl_name (top_decls items)).
Proof.
  intros addr cs items n H. apply run_sema_done in H. destruct H. split; [assumption|].
  apply (decl_items_nodup [] items sd_names).
Qed.

(** ... and within a function, every name visible at some point -- earlier
    globals and functions, the arguments, the locals declared before it in the
    enclosing blocks -- is declared once. *)
Theorem C31_function : forall pre f args body lend post,
  decl_items [] (pre ++ RFunc f args body lend :: post) ->
  NoDup (rev (map vd_name args) ++ fd_name f :: rev (map decl_name (top_decls pre))) /\
  exists vis, decl_block (rev (map vd_name args) ++ fd_name f :: rev (map decl_name (top_decls pre))) body vis /\
    NoDup vis.
Proof.
  intros pre f args body lend post.
  assert (A : forall args vis v, decl_args vis args v -> NoDup vis -> v = rev (map vd_name args) ++ vis /\ NoDup v).
  { clear. induction args as [|d t IH]; intros vis v H N; inversion H; subst; [auto|].
    destruct (IH _ _ H5) as [-> N2]; [constructor; assumption|]. split; [|exact N2].
    cbn [map rev]. rewrite <- app_assoc. reflexivity. }
  assert (B : (forall vis s v, decl_stmt vis s v -> NoDup vis -> NoDup v) /\
              (forall vis b v, decl_block vis b v -> NoDup vis -> NoDup v) /\
              (forall vis o v, decl_oblock vis o v -> NoDup vis -> NoDup v)).
  { apply decl_mut; intros; auto. constructor; assumption. }
  assert (G : forall pre vis, NoDup vis -> decl_items vis (pre ++ RFunc f args body lend :: post) ->
    exists v1 v2, NoDup (fd_name f :: rev (map decl_name (top_decls pre)) ++ vis) /\
      decl_args (fd_name f :: rev (map decl_name (top_decls pre)) ++ vis) args v1 /\ decl_block v1 body v2).
  { clear A B. intros p0. induction p0 as [|i p0 IH]; intros vis N H.
    - cbn [app] in H. inversion H; subst. eexists _, _. cbn [top_decls map rev app].
      split; [constructor; assumption|]. split; eassumption.
    - cbn [app] in H. assert (X : decl_items (decl_name (top_decl i) :: vis) (p0 ++ RFunc f args body lend :: post) /\ ~ In (decl_name (top_decl i)) vis)
        by (inversion H; subst; split; assumption).
      destruct X as [X1 X2]. destruct (IH _ (NoDup_cons _ X2 N) X1) as (v1 & v2 & Y1 & Y2 & Y3).
      exists v1, v2. unfold top_decls in *. cbn [map rev]. rewrite <- app_assoc. auto. }
  intros H. destruct (G pre [] (NoDup_nil _) H) as (v1 & v2 & N & HA & HB). rewrite app_nil_r in *.
  destruct (A _ _ _ HA N) as [-> N1]. split; [exact N1|]. exists v2. split; [exact HB|]. apply (proj1 (proj2 B) _ _ _ HB N1).
Qed.

Example C31_ex : decl_items [] ex_sema /\
  multi_decls (ex_sema ++ [RGlobal (VDecl 99 KGlobal false (bs "f") (L 20)) None]) = Err E_var_already_exists 20 /\
  exists pre f args body lend, ex_sema = pre ++ [RFunc f args body lend] /\ List.length args = 2%nat.
Proof.
  split; [apply multi_decls_iff; vm_compute; reflexivity|]. split; [vm_compute; reflexivity|].
  eexists [_; _; _; _], _, _, _, _. split; vm_compute; reflexivity.
Qed.
Print Assumptions C31_no_duplicates.
Print Assumptions C31_accepted.
Print Assumptions C31_function.

(** ** C32 *)
Theorem C32_arity_checked : forall items,
  num_args_ok items = Ok tt <->
  forall l f lf es, In (RCall l (RIdent (DF f) lf) es) (program_exprs items) ->
    (fd_sys f = true /\ fd_var f = true) \/ List.length es = fd_arity f.
Proof.
  intros items. rewrite num_args_iff, Forall_forall. unfold call_ok. split.
  - intros H l f lf es I. destruct (H _ I _ _ _ _ eq_refl) as [V|V]; [|auto]. apply andb_true_iff in V. auto.
  - intros H e I l f lf es ->. destruct (H _ _ _ _ I) as [[V1 V2]|V]; [|auto]. rewrite V1, V2. auto.
Qed.

(** In an accepted program the callee of a direct call is a function or syscall
    of the program and the call passes the declared number of arguments, unless
    it is a syscall registered for any number. *)
Theorem C32_direct_calls : forall addr cs items n l f lf es,
  run_sema addr cs = Ok (items, n) ->
  In (RCall l (RIdent (DF f) lf) es) (program_exprs items) ->
  (exists args body lend, In (RFunc f args body lend) items /\ List.length es = List.length args) \/
  (In (RSys f) items /\ (fd_var f = true \/ List.length es = fd_arity f)).
Proof.
  intros addr cs items n l f lf es H I. apply run_sema_done in H. destruct H.
  assert (J : In (RIdent (DF f) lf) (program_exprs items)).
  { unfold program_exprs in *. apply in_flat_map in I. destruct I as (e & I1 & I2). apply in_flat_map. exists e.
    split; [exact I1|]. clear -I2. revert I2. induction e using rexpr_nested; cbn [inside In]; intros [E|I]; try discriminate; right;
      try contradiction.
    - apply in_flat_map in I. destruct I as (x & A & B). rewrite Forall_forall in H. apply in_flat_map. eauto.
    - apply in_app_iff in I. apply in_app_iff. destruct I; eauto.
    - inversion E; subst. apply in_app_iff. left. left. reflexivity.
    - apply in_app_iff in I. apply in_app_iff. destruct I as [I|I]; [auto|].
      apply in_flat_map in I. destruct I as (x & A & B). rewrite Forall_forall in H. right. apply in_flat_map. eauto.
    - apply in_app_iff in I. apply in_app_iff. destruct I; eauto.
    - eauto. }
  destruct (used_program _ _ _ J) as [sc U]. rewrite Forall_forall in sd_settled. specialize (sd_settled _ U). cbn [fst settled] in sd_settled.
  apply in_map_iff in sd_settled. destruct sd_settled as (i & T & Ii).
  rewrite Forall_forall in sd_calls. pose proof (sd_calls _ I _ _ _ _ eq_refl) as C.
  destruct sd_tree as [TO _]. rewrite Forall_forall in TO. specialize (TO _ Ii).
  destruct i as [g|d oe|g args body lend]; cbn [top_decl] in T; try discriminate; inversion T; subst; cbn [item_ok] in TO.
  - right. split; [exact Ii|]. rewrite TO in C. exact C.
  - left. exists args, body, lend. split; [exact Ii|]. destruct TO as (T1 & T2 & T3 & _). rewrite T1 in C. destruct C as [C|C]; [discriminate|congruence].
Qed.

Example C32_ex :
  (exists l f lf es, In (RCall l (RIdent (DF f) lf) es) (program_exprs ex_sema) /\ List.length es = 2%nat) /\
  run_sema Z.of_nat (ex_tree ++ [CItem (TVar (bs "h") (L 10) (Some (ECall (L 10) (EIdent (bs "f") (L 10)) [EInt 1 (L 10)])))])
    = Err E_not_enough_args 10.
Proof.
  split; [|vm_compute; reflexivity].
  assert (X : exists e, nth_error (program_exprs ex_sema) 8 = Some e /\ match e with RCall _ (RIdent (DF _) _) es => List.length es = 2%nat | _ => False end)
    by (vm_compute; eexists; split; reflexivity).
  destruct X as (e & E & M). destruct e as [| | | | | | | |l f es| |]; try contradiction.
  destruct f as [| | | |[|f] lf| | | | | |]; try contradiction. exists l, f, lf, es. split; [eapply nth_error_In; exact E|exact M].
Qed.
Print Assumptions C32_arity_checked.
Print Assumptions C32_direct_calls.

(** ** C33 *)

(** In an accepted program no assignment statement has a constant as its target,
    no name in a value position refers to a constant, and every constant has an
    initialiser. *)
Theorem C33_constants : forall addr cs items n,
  run_sema addr cs = Ok (items, n) ->
  (forall d l e, In (RAssign d l e) (program_stmts items) -> vd_const d = false) /\
  (forall d l, In (RIdent (DV d) l) (program_values items) -> vd_const d = false) /\
  (forall d, In (RGlobal d None) items -> vd_const d = false).
Proof.
  intros addr cs items n H. apply run_sema_done in H. destruct H.
  destruct sd_stages as (r & r1 & n0 & _ & _ & I).
  destruct (inlined_items_after (stands_for items) ltac:(intros d e []; assumption) _ _ I) as [A B].
  rewrite Forall_forall in A, B. split; [intros d l e X; exact (B _ X d l e eq_refl)|].
  split; [intros d l X; exact (A _ X d l eq_refl)|assumption].
Qed.

(** What the analysis does to the annotated tree: initialisers of globals that
    are operator trees over integer literals and constants become their value,
    and then uses of constants in value positions become the literal of the
    constant.  Nothing else changes. *)
Theorem C33_only_constants_replaced : forall addr cs items n,
  run_sema addr cs = Ok (items, n) ->
  exists tree m folded_tree,
    annotate addr cs = Ok (tree, m) /\
    Forall2 (folded (int_const folded_tree)) tree folded_tree /\
    Forall2 (inlined_item (stands_for items)) folded_tree items.
Proof.
  intros addr cs items n H. apply run_sema_done in H. destruct H.
  destruct sd_stages as (r & r1 & n0 & A & B & C). exists r, n0, r1. auto.
Qed.

(** Assigning to a constant is an error. *)
Theorem C33_assignment_rejected : forall cur d l e,
  vd_const d = true -> con_stmt cur (RAssign d l e) = Err E_cant_assign_const (l_line l).
Proof. intros cur d l e C. cbn [con_stmt]. rewrite C. reflexivity. Qed.

Example C33_ex :
  In (RGlobal (VDecl 3 KGlobal false (bs "g") (L 2)) (Some (RInt 12 12 None))) ex_sema /\
  stands_for ex_sema (VDecl 2 KGlobal true (bs "K") (L 1)) (RInt 12 12 None) /\
  run_sema Z.of_nat (ex_tree ++ [CItem (TFunc (bs "h") (L 10) [] [SAssign (bs "K") (L 11) (EInt 1 (L 11))] (L 12))])
    = Err E_cant_assign_const 11.
Proof. vm_compute. intuition. Qed.
Print Assumptions C33_constants.
Print Assumptions C33_only_constants_replaced.
Print Assumptions C33_assignment_rejected.

(** ** C78: a name declared in both branches of an [if]

    The branches share one scope during annotation, and a scope is a set of
    pointers searched in address order.  So which of the two variables the else
    branch means depends on where the allocator put the nodes. *)
Definition both_branches : string := "function main()
  var c = 0
  if (c)
    var x = 1
    var a = 2
  else
    var a = 5
    return a
  end
  return 7
end
"%string.

Definition outcome (addr : nat -> Z) (on : bool) (text : string) : res (list seen) :=
  o <- build 5 (fun _ => None) addr on [] (snd (sm_load_from_string [] (bs text))) ;;
  match o with
  | None => Ok []
  | Some p =>
      match find (fun f => bytes_eqb (f_name f) (bs "main")) (p_functions p) with
      | None => Ok []
      | Some f =>
          '(xs, _) <- host_gc p 1000 [(cfg_never, HCallInit); (cfg_never, HCallOnce f [])]
                        (vm_start (zlen (p_globals p)) world0) ;;
          Ok xs
      end
  end.

Definition layout1 (n : nat) : Z := Z.of_nat n.
Definition layout2 (n : nat) : Z := - Z.of_nat n.
Theorem C78_meaning_depends_on_addresses :
  outcome layout1 false both_branches = Ok [SeenFlag true; SeenCall true ShNone None] /\
  outcome layout2 false both_branches = Ok [SeenFlag true; SeenCall true (ShScalar (SInt 5)) None].
Proof. split; vm_compute; reflexivity. Qed.
Print Assumptions C78_meaning_depends_on_addresses.

(** ** C79: initialisers of globals that break the analysis

    The evaluator of global initialisers has no case for [not] or for the name of
    a function, and takes a value off an empty stack when a minus is applied to a
    variable. *)
Definition analyse (text : string) : res (option program_t) :=
  build 5 (fun _ => None) layout1 false [] (snd (sm_load_from_string [] (bs text))).
Theorem C79_global_not : forall items e l v, eval items e = Ok (Some v) -> ev_supported e = true ->
  eval items (RUn UNot l e) = Stuck SAssert.
Proof.
  intros items e l v E S. unfold eval in *. cbn [ev]. rewrite S.
  destruct (ev items e ([], true)) as [[vs ok]| |]; cbn [bind] in E |- *; try discriminate.
  destruct vs as [|w [|]]; try discriminate. reflexivity.
Qed.
Theorem C79_global_minus_variable : forall items d l l2, vd_const d = false ->
  eval items (RUn UNeg l (RIdent (DV d) l2)) = Stuck SOob.
Proof. intros items d l l2 C. unfold eval. cbn [ev ev_supported bind]. rewrite C. reflexivity. Qed.
Theorem C79_global_function_name : forall items f o l l2 b, ev_supported b = true ->
  eval items (RBin o l (RIdent (DF f) l2) b) = Stuck SAssert.
Proof. intros items f o l l2 b S. unfold eval. cbn [ev ev_supported andb bind]. rewrite S. reflexivity. Qed.
Example C79_ex :
  analyse "var g = not 1
" = Stuck SAssert /\
  analyse "var a = 1
var g = -a
" = Stuck SOob /\
  analyse "function f()
  return 1
end
var g = f + 1
" = Stuck SAssert.
Proof. repeat split; vm_compute; reflexivity. Qed.
Print Assumptions C79_global_not.
Print Assumptions C79_global_minus_variable.
Print Assumptions C79_global_function_name.

(** ** C80: registering a syscall name twice, or giving a function of the
    script the name of a syscall registered after it, dereferences null *)
Theorem C80_duplicate_syscall : forall pre f post,
  Exists (fun i => decl_name (top_decl i) = fd_name f) pre ->
  (exists sc, walk multi_item pre [[]] = Ok sc) ->
  multi_decls (pre ++ RSys f :: post) = Stuck SNull.
Proof.
  intros pre f post X [sc E].
  assert (G : forall pre sc0 sc, walk multi_item pre sc0 = Ok sc ->
    (Exists (fun i => decl_name (top_decl i) = fd_name f) pre \/ In (fd_name f) (List.concat sc0)) ->
    In (fd_name f) (List.concat sc) /\ walk multi_item (pre ++ RSys f :: post) sc0 = Stuck SNull).
  { clear. intros p0. induction p0 as [|i p0 IH]; intros sc0 sc E H; cbn [walk app] in *.
    - inversion E; subst. destruct H as [H|H]; [inversion H|]. split; [exact H|].
      cbn [multi_item]. rewrite (proj2 (is_def_iff _ _) H). reflexivity.
    - inv_bind E. rewrite E0. cbn [bind]. apply (IH _ _ E).
      assert (C : List.concat a = decl_name (top_decl i) :: List.concat sc0).
      { destruct i as [g|d oe|g args body lend]; cbn [multi_item top_decl decl_name] in *.
        - destruct (is_def _ _); [discriminate|]. inversion E0; subst. apply concat_add.
        - unfold multi_var in E0. destruct (is_def _ _); [discriminate|]. inversion E0; subst. apply concat_add.
        - destruct (is_def _ _); [destruct (fd_line g); discriminate|]. inv_bind E0. inv_bind E0. inversion E0; subst. apply concat_add. }
      rewrite C. destruct H as [H|H]; [|right; right; exact H]. inversion H; subst; [right; left; assumption|left; assumption]. }
  unfold multi_decls. destruct (G pre [[]] sc E (or_introl X)) as [_ ->]. reflexivity.
Qed.
Example C80_ex :
  build 5 (fun _ => None) layout1 false [(bs "puts", 1); (bs "puts", 1)]
    (snd (sm_load_from_string [] (bs "function main()
end
"))) = Stuck SNull.
Proof. vm_compute. reflexivity. Qed.
Print Assumptions C80_duplicate_syscall.

(** ** C81: a constant cannot be none *)
Theorem C81_const_none_rejected : forall d l n rest,
  vd_const d = true ->
  bind (global_vars [RGlobal d (Some (RNone l))] n) (fun '(r, _) => consts (r ++ rest))
    = Err E_const_needs_init (l_line (vd_line d)).
Proof. intros d l n rest C. cbn. rewrite C. reflexivity. Qed.
Example C81_ex : analyse "const X = none
function main()
  return 1
end
" = Err E_const_needs_init 1.
Proof. vm_compute. reflexivity. Qed.
Print Assumptions C81_const_none_rejected.
