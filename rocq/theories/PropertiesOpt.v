(** Properties of the optimiser: C34 - C37. *)
From Coq Require Import ZArith List Bool Lia String.
From Verif Require Import Base F32 Program VM Gc GcSpec Host AbsHeap Source Lexer Ast Parser Sema
  Optimize Codegen Build SemaSpec SemaFacts ConstFacts SrcSem SrcFacts OptSpec OptFacts Demo.
Import ListNotations.
Open Scope list_scope.
Open Scope Z_scope.

(** ** Programs for the examples *)
Definition text_tree (s : string) : list ritem * nat :=
  match (let m := snd (sm_load_from_string [] (bs s)) in
         '(items, _) <- parse_sources 5 (fun _ => None) m 0 [] [] ;;
         run_sema Z.of_nat (map CItem items)) with
  | Ok r => r | _ => ([], 0%nat)
  end.
(** The result of [main] after @init, with the optimiser off or on. *)
Definition main_result (on : bool) (text : string) : res (list seen) :=
  o <- build 5 (fun _ => None) Z.of_nat on [] (snd (sm_load_from_string [] (bs text))) ;;
  match o with
  | None => Ok []
  | Some p =>
      match find (fun f => bytes_eqb (f_name f) (bs "main")) (p_functions p) with
      | None => Ok []
      | Some f =>
          '(xs, _) <- host_gc p 1000 [(cfg_never, HCallInit); (cfg_never, HCallOnce f [])]
                        (vm_start (zlen (p_globals p)) world0) ;;
          Ok xs
      end
  end.
(** The same by the source semantics: the function named [main], no arguments. *)
Definition source_result (items : list ritem) (n : nat) : option (option aval) :=
  let sys _ _ (_ : sst) := Undefined in
  match initial items Z.of_nat (fun _ => 0) sys n (St [] [] world0 []) with
  | Done st =>
      match find (fun x => bytes_eqb (fd_name (fst (fst x))) (bs "main")) (functs items) with
      | Some x => match run_call items Z.of_nat (fun _ => 0) sys n x [] st with
                  | Done (v, _) => Some (Some v) | _ => Some None end
      | None => None
      end
  | _ => None
  end.

(** Folding, code after a return, branches that are never taken, a loop that is
    never entered, and a constant that decides one [if]. *)
Definition opt_text : string := "const K = 0
var g = 5
function f(a)
  var s = 0
  if (2 * 3 < 7)
    s = s + a
  else
    s = s - a
  end
  if (0)
    s = 1000
  else
    s = s + (10 - 3) * 2
  end
  while (1 > 2)
    s = s + 100000
  end
  if (K)
    s = 0 - s
  end
  return s + 7 % 4
  s = 3
  return 4
end
function main()
  var r = f(g)
  return r * 2
end
"%string.
Definition opt_items : list ritem := fst (text_tree opt_text).
Definition opt_next : nat := snd (text_tree opt_text).
Example opt_runs :
  source_result opt_items 100 = Some (Some (AS (SInt 44))) /\
  main_result false opt_text = Ok [SeenFlag true; SeenCall true (ShScalar (SInt 44)) None] /\
  main_result true opt_text = Ok [SeenFlag true; SeenCall true (ShScalar (SInt 44)) None].
Proof. repeat split; vm_compute; reflexivity. Qed.

(** ** C34: constant folding *)

(** Where the pass looks at an expression it leaves it alone or puts a literal
    in its place, and then the expression evaluates to that integer -- in every
    program, environment and state, without changing the state. *)
Theorem C34_folding : forall e k e' k', fold_top e k = Ok (e', k') ->
  (e' = e /\ k' = k) \/
  exists v, e' = RInt k v None /\ k' = S k /\
    forall items faddr sidx sys, exists n0, forall n r st, (n0 <= n)%nat ->
      run_expr items faddr sidx sys n r e st = Done (AS (SInt v), st).
Proof.
  intros e k e' k' E. unfold fold_top in E. inv_bind E.
  destruct e; try (inversion E; subst; now left). destruct a; inversion E; subst; [|now left].
  right. eexists. repeat split. intros. apply cval_runs. exact E0.
Qed.
(** Nothing is left to compute: an operator over literals becomes a literal
    whenever the pass accepts it. *)
Inductive literal_tree : rexpr -> Prop :=
| tree_literal id v l : literal_tree (RInt id v l)
| tree_unary o l a : literal_tree a -> literal_tree (RUn o l a)
| tree_binary o l a b : literal_tree a -> literal_tree b -> literal_tree (RBin o l a b).
Theorem C34_folds : forall o l a b n e' n', literal_tree a -> literal_tree b ->
  fold_top (RBin o l a b) n = Ok (e', n') -> exists v, e' = RInt n v None.
Proof.
  assert (G : forall e, literal_tree e -> forall r, cval e = Ok r -> r <> None).
  { induction 1 as [id v l|o l a A IA|o l a b A IA B IB]; intros r E; cbn [cval] in E.
    - injection E as <-. discriminate.
    - inv_bind E. destruct a0 as [v|]; [|destruct (IA _ E0 eq_refl)]. destruct o; [inv_bind E|]; inversion E; discriminate.
    - inv_bind E. inv_bind E. destruct a0 as [v|]; [|destruct (IA _ E0 eq_refl)]. destruct a1 as [w|]; [|destruct (IB _ E1 eq_refl)].
      destruct ((w =? 0) && is_div o); [discriminate|]. inv_bind E. inversion E. discriminate. }
  intros o l a b n e' n' A B E. unfold fold_top in E. inv_bind E.
  destruct a0 as [v|]; [|destruct (G _ (tree_binary o l a b A B) _ E0 eq_refl)]. inversion E. exists v. reflexivity.
Qed.
Theorem C34_pass : forall items n items' n',
  const_expr items n = Ok (items', n') -> same_behaviour items items'.
Proof. intros. apply better_behaviour. eapply const_expr_better. eassumption. Qed.
(** The pass gives up with an error only for a division or a remainder in the
    expression whose right operand always evaluates to 0, and the left one to an
    integer; the line of the error is that of the operator.  [part x e] : [x] is a
    part of [e], or [e] itself. *)
Inductive part (x : rexpr) : rexpr -> Prop :=
| part_self : part x x
| part_element l es e : In e es -> part x e -> part x (RArray l es)
| part_indexed l a i : part x a -> part x (RIndex l a i)
| part_index l a i : part x i -> part x (RIndex l a i)
| part_callee l f es : part x f -> part x (RCall l f es)
| part_argument l f es e : In e es -> part x e -> part x (RCall l f es)
| part_left o l a b : part x a -> part x (RBin o l a b)
| part_right o l a b : part x b -> part x (RBin o l a b)
| part_operand o l a : part x a -> part x (RUn o l a).
Definition always_gives (e : rexpr) (v : Z) : Prop :=
  forall items faddr sidx sys, exists n0, forall n r st, (n0 <= n)%nat ->
    run_expr items faddr sidx sys n r e st = Done (AS (SInt v), st).
Definition divides_by_zero (e : rexpr) (line : Z) : Prop :=
  exists o l a b v, (o = BDiv \/ o = BMod) /\ l_line l = line /\ part (RBin o l a b) e /\
    always_gives a v /\ always_gives b 0.
Lemma cval_err e : forall x l, cval e = Err x l -> x = E_constant_divide_by_zero /\ divides_by_zero e l.
Proof.
  assert (EA : forall es, Forall (fun e => forall x l, cval e = Err x l -> x = E_constant_divide_by_zero /\ divides_by_zero e l) es ->
           forall x l, each_ cval es = Err x l -> x = E_constant_divide_by_zero /\ exists e, In e es /\ divides_by_zero e l).
  { induction 1 as [|a es H F IH]; intros x l E; cbn [each_] in E; [discriminate|].
    destruct (cval a) eqn:C; cbn [bind] in E; [|inversion E; subst; destruct (H _ _ eq_refl); split; [auto|exists a; split; [left; reflexivity|auto]]|discriminate].
    destruct (each_ cval es) eqn:C2; cbn [bind] in E; [discriminate| |discriminate]. inversion E; subst.
    destruct (IH _ _ eq_refl) as (? & y & Y & D). split; [auto|]. exists y. split; [right; exact Y|exact D]. }
  assert (K : forall z x l, (r <- chk32 z ;; Ok (Some r)) = Err x l -> False).
  { intros z x l. unfold chk32. destruct (in_i32 z); discriminate. }
  assert (UP : forall e e' l, (forall x, part x e -> part x e') -> divides_by_zero e l -> divides_by_zero e' l).
  { intros e0 e' l H (o & l' & a & b & v & ? & ? & P & ?). exists o, l', a, b, v. auto 8. }
  induction e using rexpr_nested; intros x0 l0 E; cbn [cval] in E; try discriminate.
  - destruct (each_ cval es) eqn:C; cbn [bind] in E; [discriminate| |discriminate]. inversion E; subst.
    edestruct EA as (X & y & Y & D); [eassumption|eassumption|]. split; [exact X|]. eapply UP; [|exact D]. intros; eapply part_element; eauto.
  - destruct (cval e1) eqn:C1; cbn [bind] in E; [|inversion E; subst; destruct (IHe1 _ _ eq_refl); split; [auto|eapply UP; [|eassumption]; intros; now apply part_indexed]|discriminate].
    destruct (cval e2) eqn:C2; cbn [bind] in E; [discriminate|inversion E; subst; destruct (IHe2 _ _ eq_refl); split; [auto|eapply UP; [|eassumption]; intros; now apply part_index]|discriminate].
  - destruct (each_ cval es) eqn:C; cbn [bind] in E.
    + destruct (cval e) eqn:C1; cbn [bind] in E; [discriminate| |discriminate]. inversion E; subst. destruct (IHe _ _ eq_refl); split; [auto|eapply UP; [|eassumption]; intros; now apply part_callee].
    + inversion E; subst. edestruct EA as (X & y & Y & D); [eassumption|eassumption|]. split; [exact X|]. eapply UP; [|exact D]. intros; eapply part_argument; eauto.
    + discriminate.
  - destruct (cval e1) eqn:C1; cbn [bind] in E; [|inversion E; subst; destruct (IHe1 _ _ eq_refl); split; [auto|eapply UP; [|eassumption]; intros; now apply part_left]|discriminate].
    destruct (cval e2) eqn:C2; cbn [bind] in E; [|inversion E; subst; destruct (IHe2 _ _ eq_refl); split; [auto|eapply UP; [|eassumption]; intros; now apply part_right]|discriminate].
    match type of C1 with _ = Ok ?o => destruct o as [v|] end; [|discriminate].
    match type of C2 with _ = Ok ?o => destruct o as [w|] end; [|discriminate].
    destruct ((w =? 0) && is_div o) eqn:Dz.
    + inversion E; subst. split; [reflexivity|]. apply andb_prop in Dz. destruct Dz as [W Dv]. apply Z.eqb_eq in W. subst w.
      eexists o, _, e1, e2, v. split; [destruct o; try discriminate Dv; auto|]. split; [reflexivity|]. split; [apply part_self|].
      split; intros ? ? ? ?; apply cval_runs; assumption.
    + exfalso. unfold fold_bin, chk32 in E. destruct o; cbn [bind] in E;
        repeat match type of E with context [if ?b then _ else _] => destruct b; cbn [bind] in E end; discriminate.
  - destruct (cval e) eqn:C1; cbn [bind] in E; [|inversion E; subst; destruct (IHe _ _ eq_refl); split; [auto|eapply UP; [|eassumption]; intros; now apply part_operand]|discriminate].
    match type of C1 with _ = Ok ?o => destruct o as [v|] end; [|discriminate]. destruct o; [exfalso; eapply K; exact E|discriminate].
Qed.
Theorem C34_only_error : forall e n x l, fold_top e n = Err x l -> x = E_constant_divide_by_zero /\ divides_by_zero e l.
Proof.
  intros e n x l E. unfold fold_top in E. destruct (cval e) eqn:C; cbn [bind] in E.
  - destruct e; match type of C with _ = Ok ?o => destruct o end; discriminate.
  - inversion E; subst. eapply cval_err. exact C.
  - discriminate.
Qed.
Example C34_ex :
  fold_top (RBin BAdd (Line 0 1) (RBin BMul (Line 0 1) (RInt 0 6 None) (RInt 1 7 None)) (RUn UNeg (Line 0 1) (RInt 2 2 None))) 3
    = Ok (RInt 3 40 None, 4%nat) /\
  fold_top (RBin BDiv (Line 0 9) (RInt 0 6 None) (RBin BSub (Line 0 9) (RInt 1 7 None) (RInt 2 7 None))) 3
    = Err E_constant_divide_by_zero 9 /\
  (exists items' n', const_expr opt_items opt_next = Ok (items', n') /\ items' <> opt_items /\
     source_result items' 100 = Some (Some (AS (SInt 44)))).
Proof.
  split; [vm_compute; reflexivity|]. split; [vm_compute; reflexivity|].
  eexists _, _. split; [vm_compute; reflexivity|]. split; [vm_compute; discriminate|vm_compute; reflexivity].
Qed.
Print Assumptions C34_folding.
Print Assumptions C34_folds.
Print Assumptions C34_pass.
Print Assumptions C34_only_error.

(** ** C35: code after a return *)
Theorem C35_after_return : forall items faddr sidx sys n r pre l e post st,
  run_stmts items faddr sidx sys n r (pre ++ RReturn l e :: post) st =
  run_stmts items faddr sidx sys n r (pre ++ [RReturn l e]) st.
Proof. intros. apply after_return. Qed.
(** What the pass removes: everything after the first return of the body, and
    nothing else. *)
Theorem C35_what_is_removed : forall f args body lend,
  (forall l e, ~ In (RReturn l e) body) /\ post_ret (RFunc f args body lend) = RFunc f args body lend \/
  exists pre l e post, body = pre ++ RReturn l e :: post /\ (forall l e, ~ In (RReturn l e) pre) /\
    post_ret (RFunc f args body lend) = RFunc f args (pre ++ [RReturn l e]) lend.
Proof.
  intros f args body lend. cbn [post_ret].
  assert (G : (forall l e, ~ In (RReturn l e) body) /\ cut_block body = body \/
            exists pre l e post, body = pre ++ RReturn l e :: post /\ (forall l e, ~ In (RReturn l e) pre) /\
            cut_block body = pre ++ [RReturn l e]).
  { induction body as [|s b IH]; [left; split; [intros l e []|reflexivity]|].
    assert (T : (forall l e, s <> RReturn l e) -> cut_block (s :: b) = s :: cut_block b ->
      (forall l e, ~ In (RReturn l e) (s :: b)) /\ cut_block (s :: b) = s :: b \/
      exists pre l e post, s :: b = pre ++ RReturn l e :: post /\ (forall l e, ~ In (RReturn l e) pre) /\
        cut_block (s :: b) = pre ++ [RReturn l e]).
    { intros NR ->. destruct IH as [[N ->]|(pre & l & e & post & -> & N & ->)].
      - left. split; [|reflexivity]. intros l e [X|X]; [exact (NR l e X)|exact (N l e X)].
      - right. exists (s :: pre), l, e, post. split; [reflexivity|split; [|reflexivity]].
        intros l' e' [X|X]; [exact (NR l' e' X)|exact (N l' e' X)]. }
    destruct s; try (apply T; [intros ? ?; discriminate|reflexivity]).
    right. exists [], l, e, b. split; [reflexivity|split; [intros ? ? []|reflexivity]]. }
  destruct G as [[N ->]|(pre & l & e & post & -> & N & ->)]; [left; auto|]. right. exists pre, l, e, post. auto.
Qed.
(** Nothing else of a program is changed by it. *)
Theorem C35_only_functions : forall i, (forall f args body lend, i <> RFunc f args body lend) -> post_ret i = i.
Proof. intros [| |f a b l] N; cbn; auto; destruct (N _ _ _ _ eq_refl). Qed.
Theorem C35_pass : forall items, same_behaviour items (map post_ret items).
Proof. intros. apply better_behaviour, post_ret_better. Qed.
Example C35_ex :
  map post_ret opt_items <> opt_items /\
  source_result (map post_ret opt_items) 100 = Some (Some (AS (SInt 44))).
Proof. split; [vm_compute; discriminate|vm_compute; reflexivity]. Qed.
Print Assumptions C35_after_return.
Print Assumptions C35_what_is_removed.
Print Assumptions C35_only_functions.
Print Assumptions C35_pass.

(** ** C36: branches decided by a literal *)
Theorem C36_branch_removal : forall items, unshared items -> same_behaviour items (if_remove items).
Proof. intros. apply better_behaviour, if_remove_better. assumption. Qed.
(** No branch that a literal decides is left: an [if] on a literal has no else
    branch after the pass, wherever it stands.  [within x s] : the statement [x] is
    [s] or stands in one of its blocks. *)
Inductive within (x : rstmt) : rstmt -> Prop :=
| within_self : within x x
| within_then l c b f s : In s b -> within x s -> within x (RIf l c (Some b) f)
| within_else l c t b s : In s b -> within x s -> within x (RIf l c t (Some b))
| within_while l c b s : In s b -> within x s -> within x (RWhile l c (Some b))
| within_for l d lx a b body s : In s body -> within x s -> within x (RFor l d lx a b body).
Definition decided (s : rstmt) : Prop := forall l id v lo t f, within (RIf l (RInt id v lo) t f) s -> f = None.
Lemma decided_block b : Forall (fun s => forall w s' w' W, ifr_stmt s w = (s', w') -> decided (set_stmt W s')) b ->
  forall w b' w' W, ifr_block b w = (b', w') -> Forall decided (map (set_stmt W) b').
Proof.
  induction 1 as [|s b H F IH]; intros w b' w' W E; cbn [ifr_block] in E; [inversion E; constructor|].
  destruct (ifr_stmt s w) as [s1 w1] eqn:E1. destruct (ifr_block b w1) as [b1 w2] eqn:E2. inversion E; subst.
  cbn [map]. constructor; [eapply H; exact E1|eapply IH; exact E2].
Qed.
Lemma decided_oblock o : oall (fun s => forall w s' w' W, ifr_stmt s w = (s', w') -> decided (set_stmt W s')) o ->
  forall w o' w' W, ifr_oblock o w = (o', w') -> oall decided (option_map (map (set_stmt W)) o').
Proof.
  destruct o as [b|]; cbn [oall ifr_oblock]; intros F w o' w' W E; [|inversion E; exact Logic.I].
  destruct (ifr_block b w) as [b1 w1] eqn:E1. inversion E; subst. cbn [option_map oall]. eapply decided_block; eassumption.
Qed.
Lemma decided_stmt s : forall w s' w' W, ifr_stmt s w = (s', w') -> decided (set_stmt W s').
Proof.
  induction s using rstmt_nested; intros w s' w' W E;
    try (cbn [ifr_stmt] in E; inversion E; subst; cbn [set_stmt]; intros ? ? ? ? ? ? X; inversion X; fail).
  - rename H into Ht, H0 into Hf. rewrite ifr_if in E.
    destruct (ifr_oblock t w) as [t1 w1] eqn:Et. destruct (ifr_oblock f w1) as [f1 w2] eqn:Ef.
    apply (decided_oblock _ Ht _ _ _ W) in Et. apply (decided_oblock _ Hf _ _ _ W) in Ef. clear Ht Hf.
    assert (G : forall t2 f2, oall decided (option_map (map (set_stmt W)) t2) -> oall decided (option_map (map (set_stmt W)) f2) ->
      (f2 = None \/ forall id v lo, c <> RInt id v lo) -> decided (set_stmt W (RIf l c t2 f2))).
    { intros t2 f2 T2 F2 C l0 id v lo t0 f0 X. cbn [set_stmt] in X. inversion X as [X0|? ? b ? s I0 X0 Q|? ? ? b s I0 X0 Q| |].
      - destruct C as [->|C]; [reflexivity|]. destruct c; try discriminate. destruct (C _ _ _ eq_refl).
      - destruct t2 as [t2|]; [|discriminate]. cbn [option_map oall] in *.
        match goal with H : Some _ = Some _ |- _ => injection H as H; subst end. rewrite Forall_forall in T2. exact (T2 _ I0 _ _ _ _ _ _ X0).
      - destruct f2 as [f2|]; [|discriminate]. cbn [option_map oall] in *.
        match goal with H : Some _ = Some _ |- _ => injection H as H; subst end. rewrite Forall_forall in F2. exact (F2 _ I0 _ _ _ _ _ _ X0). }
    assert (N : oall decided (option_map (map (set_stmt W)) (@None (list rstmt)))) by exact Logic.I.
    destruct c; try (inversion E; subst; apply G; [assumption..|right; discriminate]).
    destruct (negb _); inversion E; subst; (apply G; [assumption..|left; reflexivity]).
  - rename H into Hb. rewrite ifr_while in E. destruct (ifr_oblock b w) as [b1 w1] eqn:Eb.
    apply (decided_oblock _ Hb _ _ _ W) in Eb. clear Hb.
    assert (G : forall b2, oall decided (option_map (map (set_stmt W)) b2) -> decided (set_stmt W (RWhile l c b2))).
    { intros b2 B2 l0 id v lo t0 f0 X. cbn [set_stmt] in X. inversion X as [| | |? ? b0 s I0 X0 Q|].
      destruct b2 as [b2|]; [|discriminate]. cbn [option_map oall] in *.
      match goal with H : Some _ = Some _ |- _ => injection H as H; subst end. rewrite Forall_forall in B2. exact (B2 _ I0 _ _ _ _ _ _ X0). }
    destruct c; try (inversion E; subst; apply G; assumption).
    destruct (_ =? 0); inversion E; subst; apply G; [exact Logic.I|assumption].
  - rename H into Hb. rewrite ifr_for in E. destruct (ifr_block _ w) as [b1 w1] eqn:Eb. inversion E; subst.
    apply (decided_block _ Hb _ _ _ W) in Eb. intros l0 id v lo t0 f0 X. cbn [set_stmt] in X. inversion X as [| | | |? ? ? ? ? ? s I0 X0 Q]; subst.
    rewrite Forall_forall in Eb. exact (Eb _ I0 _ _ _ _ _ _ X0).
Qed.
Theorem C36_nothing_left : forall items f args body lend s l id v lo t e,
  In (RFunc f args body lend) (if_remove items) -> In s body -> within (RIf l (RInt id v lo) t e) s -> e = None.
Proof.
  intros items f args body lend s l id v lo t e I0 Is X. unfold if_remove in I0. destruct (ifr_items items []) as [r W] eqn:E.
  assert (G : forall items w r w', ifr_items items w = (r, w') -> forall f args body lend, In (RFunc f args body lend) (map (set_item W) r) ->
    Forall decided body).
  { clear. induction items as [|i items IH]; intros w r w' E f args body lend I0; cbn [ifr_items] in E; [inversion E; subst; destruct I0|].
    destruct i as [g|d oe|g a b le]; try (destruct (ifr_items items w) as [r1 w1] eqn:E1; inversion E; subst; destruct I0 as [I0|I0]; [discriminate|eapply IH; eassumption]).
    destruct (ifr_block b w) as [b1 w1] eqn:Eb. destruct (ifr_items items w1) as [r1 w2] eqn:E1. inversion E; subst.
    destruct I0 as [I0|I0]; [|eapply IH; eassumption]. cbn [set_item] in I0. injection I0 as <- <- <- <-.
    eapply decided_block; [|exact Eb]. apply Forall_forall. intros s _. apply decided_stmt. }
  pose proof (G _ _ _ _ E _ _ _ _ I0) as F. rewrite Forall_forall in F. exact (F s Is _ _ _ _ _ _ X).
Qed.
Example C36_nothing_left_ex : let l := Line 0 1 in let g := fun s => [RFunc (FDecl 0 (bs "f") None false false 0) [] [RWhile l (RIdent (DF (FDecl 0 (bs "f") None false false 0)) l) (Some [s])] l] in
  if_remove (g (RIf l (RInt 7 0 None) (Some [RReturn l None]) (Some [RVar (VDecl 1 KLocal false (bs "x") l) None])))
    = g (RIf l (RInt 7 1 None) (Some [RVar (VDecl 1 KLocal false (bs "x") l) None]) None).
Proof. reflexivity. Qed.
(** Likewise, a [while] on the literal 0 has no body after the pass. *)
Lemma written_block b : Forall (fun s => forall w s' w', ifr_stmt s w = (s', w') -> incl w w') b ->
  forall w b' w', ifr_block b w = (b', w') -> incl w w'.
Proof.
  induction 1 as [|s b H F IH]; intros w b' w' E; cbn [ifr_block] in E; [inversion E; apply incl_refl|].
  destruct (ifr_stmt s w) as [s1 w1] eqn:E1. destruct (ifr_block b w1) as [b1 w2] eqn:E2. inversion E; subst.
  eapply incl_tran; [eapply H; exact E1|eapply IH; exact E2].
Qed.
Lemma written_oblock o : oall (fun s => forall w s' w', ifr_stmt s w = (s', w') -> incl w w') o ->
  forall w o' w', ifr_oblock o w = (o', w') -> incl w w'.
Proof.
  destruct o as [b|]; cbn [oall ifr_oblock]; intros F w o' w' E; [|inversion E; apply incl_refl].
  destruct (ifr_block b w) as [b1 w1] eqn:E1. inversion E; subst. eapply written_block; eassumption.
Qed.
Lemma written_stmt s : forall w s' w', ifr_stmt s w = (s', w') -> incl w w'.
Proof.
  induction s using rstmt_nested; intros w s' w' E; try (cbn [ifr_stmt] in E; inversion E; subst; apply incl_refl).
  - rewrite ifr_if in E. destruct (ifr_oblock t w) as [t1 w1] eqn:Et. destruct (ifr_oblock f w1) as [f1 w2] eqn:Ef.
    apply (written_oblock _ H) in Et. apply (written_oblock _ H0) in Ef. assert (I0 : incl w w2) by (eapply incl_tran; eassumption).
    destruct c; try (inversion E; subst; exact I0). destruct (negb _); inversion E; subst; [exact I0|apply incl_tl; exact I0].
  - rewrite ifr_while in E. destruct (ifr_oblock b w) as [b1 w1] eqn:Eb. apply (written_oblock _ H) in Eb.
    destruct c; try (inversion E; subst; exact Eb). destruct (_ =? 0); inversion E; subst; exact Eb.
  - rewrite ifr_for in E. destruct (ifr_block _ w) as [b1 w1] eqn:Eb. inversion E; subst. eapply written_block; eassumption.
Qed.
Definition idle (s : rstmt) : Prop := forall l id lo b, within (RWhile l (RInt id 0 lo) b) s -> b = None.
Lemma idle_block b : Forall (fun s => forall w s' w' W, ifr_stmt s w = (s', w') -> incl w' W -> idle (set_stmt W s')) b ->
  forall w b' w' W, ifr_block b w = (b', w') -> incl w' W -> Forall idle (map (set_stmt W) b').
Proof.
  induction 1 as [|s b H F IH]; intros w b' w' W E L; cbn [ifr_block] in E; [inversion E; constructor|].
  destruct (ifr_stmt s w) as [s1 w1] eqn:E1. destruct (ifr_block b w1) as [b1 w2] eqn:E2. inversion E; subst.
  cbn [map]. constructor; [|eapply IH; [exact E2|exact L]]. eapply H; [exact E1|]. eapply incl_tran; [|exact L].
  eapply written_block; [|exact E2]. apply Forall_forall. intros x _. apply written_stmt.
Qed.
Lemma idle_oblock o : oall (fun s => forall w s' w' W, ifr_stmt s w = (s', w') -> incl w' W -> idle (set_stmt W s')) o ->
  forall w o' w' W, ifr_oblock o w = (o', w') -> incl w' W -> oall idle (option_map (map (set_stmt W)) o').
Proof.
  destruct o as [b|]; cbn [oall ifr_oblock]; intros F w o' w' W E L; [|inversion E; exact Logic.I].
  destruct (ifr_block b w) as [b1 w1] eqn:E1. inversion E; subst. cbn [option_map oall]. eapply idle_block; eassumption.
Qed.
Lemma idle_stmt s : forall w s' w' W, ifr_stmt s w = (s', w') -> incl w' W -> idle (set_stmt W s').
Proof.
  induction s using rstmt_nested; intros w s' w' W E L;
    try (cbn [ifr_stmt] in E; inversion E; subst; cbn [set_stmt]; intros ? ? ? ? X; inversion X; fail).
  - rename H into Ht, H0 into Hf. rewrite ifr_if in E.
    destruct (ifr_oblock t w) as [t1 w1] eqn:Et. destruct (ifr_oblock f w1) as [f1 w2] eqn:Ef.
    assert (L2 : incl w2 W).
    { destruct c; try (inversion E; subst; exact L). destruct (negb _); inversion E; subst; [exact L|]. intros x X. apply L. right. exact X. }
    assert (L1 : incl w1 W).
    { eapply incl_tran; [|exact L2]. eapply written_oblock; [|exact Ef]. destruct f; [|exact Logic.I]. apply Forall_forall. intros x _. apply written_stmt. }
    apply (idle_oblock _ Ht _ _ _ W) in Et; [|exact L1]. apply (idle_oblock _ Hf _ _ _ W) in Ef; [|exact L2]. clear Ht Hf.
    assert (G : forall t2 f2, oall idle (option_map (map (set_stmt W)) t2) -> oall idle (option_map (map (set_stmt W)) f2) ->
      idle (set_stmt W (RIf l c t2 f2))).
    { intros t2 f2 T2 F2 l0 id lo b0 X. cbn [set_stmt] in X. inversion X as [|? ? b ? s I0 X0 Q|? ? ? b s I0 X0 Q| |].
      - destruct t2 as [t2|]; [|discriminate]. cbn [option_map oall] in *.
        match goal with H : Some _ = Some _ |- _ => injection H as H; subst end. rewrite Forall_forall in T2. exact (T2 _ I0 _ _ _ _ X0).
      - destruct f2 as [f2|]; [|discriminate]. cbn [option_map oall] in *.
        match goal with H : Some _ = Some _ |- _ => injection H as H; subst end. rewrite Forall_forall in F2. exact (F2 _ I0 _ _ _ _ X0). }
    assert (N : oall idle (option_map (map (set_stmt W)) (@None (list rstmt)))) by exact Logic.I.
    destruct c; try (inversion E; subst; apply G; assumption).
    destruct (negb _); inversion E; subst; (apply G; assumption).
  - rename H into Hb. rewrite ifr_while in E. destruct (ifr_oblock b w) as [b1 w1] eqn:Eb.
    assert (L1 : incl w1 W).
    { destruct c; try (inversion E; subst; exact L). destruct (_ =? 0); inversion E; subst; exact L. }
    apply (idle_oblock _ Hb _ _ _ W) in Eb; [|exact L1]. clear Hb.
    assert (G : forall b2, oall idle (option_map (map (set_stmt W)) b2) -> (b2 = None \/ forall id lo, set_expr W c <> RInt id 0 lo) ->
      idle (set_stmt W (RWhile l c b2))).
    { intros b2 B2 C l0 id lo b0 X. cbn [set_stmt] in X. inversion X as [X0| | |? ? b3 s I0 X0 Q|].
      - destruct C as [->|C]; [reflexivity|]. exfalso. eapply C. symmetry. eassumption.
      - destruct b2 as [b2|]; [|discriminate]. cbn [option_map oall] in *.
        match goal with H : Some _ = Some _ |- _ => injection H as H; subst end. rewrite Forall_forall in B2. exact (B2 _ I0 _ _ _ _ X0). }
    destruct c; try (inversion E; subst; apply G; [assumption|right; cbn [set_expr]; discriminate]).
    destruct (read_lit w1 id v =? 0) eqn:R; inversion E; subst; apply G; [exact Logic.I|left; reflexivity|assumption|right].
    intros id0 lo0 Q. cbn [set_expr] in Q. injection Q as _ Q _. unfold read_lit in R, Q.
    destruct (existsb (Nat.eqb id) W) eqn:XW; [discriminate Q|]. subst v. destruct (existsb (Nat.eqb id) w') eqn:X1; [|discriminate R].
    apply existsb_exists in X1. destruct X1 as (y & Y & Ey). rewrite (proj2 (existsb_exists _ _)) in XW; [discriminate|].
    exists y. split; [apply L1; exact Y|exact Ey].
  - rename H into Hb. rewrite ifr_for in E. destruct (ifr_block _ w) as [b1 w1] eqn:Eb. inversion E; subst.
    apply (idle_block _ Hb _ _ _ W) in Eb; [|exact L]. intros l0 id lo b0 X. cbn [set_stmt] in X. inversion X as [| | | |? ? ? ? ? ? s I0 X0 Q]; subst.
    rewrite Forall_forall in Eb. exact (Eb _ I0 _ _ _ _ X0).
Qed.
Theorem C36_no_idle_loop : forall items f args body lend s l id lo b,
  In (RFunc f args body lend) (if_remove items) -> In s body -> within (RWhile l (RInt id 0 lo) b) s -> b = None.
Proof.
  intros items f args body lend s l id lo b I0 Is X. unfold if_remove in I0. destruct (ifr_items items []) as [r W] eqn:E.
  assert (M : forall items w r w', ifr_items items w = (r, w') -> incl w w').
  { clear. induction items as [|i items IH]; intros w r w' E; cbn [ifr_items] in E; [inversion E; apply incl_refl|].
    destruct i as [g|d oe|g a b le]; try (destruct (ifr_items items w) as [r1 w1] eqn:E1; inversion E; subst; eapply IH; exact E1).
    destruct (ifr_block b w) as [b1 w1] eqn:Eb. destruct (ifr_items items w1) as [r1 w2] eqn:E1. inversion E; subst.
    eapply incl_tran; [|eapply IH; exact E1]. eapply written_block; [|exact Eb]. apply Forall_forall. intros x _. apply written_stmt. }
  assert (G : forall items w r w', ifr_items items w = (r, w') -> incl w' W -> forall f args body lend, In (RFunc f args body lend) (map (set_item W) r) ->
    Forall idle body).
  { clear - M. induction items as [|i items IH]; intros w r w' E L f args body lend I0; cbn [ifr_items] in E; [inversion E; subst; destruct I0|].
    destruct i as [g|d oe|g a b le]; try (destruct (ifr_items items w) as [r1 w1] eqn:E1; inversion E; subst; destruct I0 as [I0|I0]; [discriminate|eapply IH; eassumption]).
    destruct (ifr_block b w) as [b1 w1] eqn:Eb. destruct (ifr_items items w1) as [r1 w2] eqn:E1. inversion E; subst.
    destruct I0 as [I0|I0]; [|eapply IH; eassumption]. cbn [set_item] in I0. injection I0 as <- <- <- <-.
    eapply idle_block; [|exact Eb|eapply incl_tran; [eapply M; exact E1|exact L]]. apply Forall_forall. intros s _. apply idle_stmt. }
  pose proof (G _ _ _ _ E (incl_refl W) _ _ _ _ I0) as F. rewrite Forall_forall in F. exact (F s Is _ _ _ _ X).
Qed.
Example C36_no_idle_loop_ex : let l := Line 0 1 in let g := fun b => [RFunc (FDecl 0 (bs "f") None false false 0) [] [RWhile l (RInt 7 0 None) b] l] in
  if_remove (g (Some [RReturn l None])) = g None.
Proof. reflexivity. Qed.
(** All three passes; new literals are numbered from [n]. *)
Theorem C36_whole_optimiser : forall on items n items' n',
  (forall id, In id (literal_nodes items) -> (id < n)%nat) -> unshared items ->
  run_optimize on items n = Ok (items', n') -> same_behaviour items items'.
Proof. exact run_optimize_better. Qed.
Definition unshared_b (items : list ritem) : bool :=
  forallb (fun id => Nat.eqb (count_occ Nat.eq_dec (literal_nodes items) id) 1) (if_literals items).
Lemma unshared_b_ok items : unshared_b items = true -> unshared items.
Proof. intros H id I. unfold unshared_b in H. rewrite forallb_forall in H. apply Nat.eqb_eq. auto. Qed.
Example C36_ex :
  unshared opt_items /\
  (forall id, In id (literal_nodes opt_items) -> (id < opt_next)%nat) /\
  if_remove opt_items <> opt_items /\
  source_result (if_remove opt_items) 100 = Some (Some (AS (SInt 44))) /\
  exists items' n', run_optimize true opt_items opt_next = Ok (items', n') /\
    source_result items' 100 = Some (Some (AS (SInt 44))).
Proof.
  split; [apply unshared_b_ok; vm_compute; reflexivity|].
  split. { intros id I. assert (F : forallb (fun i => Nat.ltb i opt_next) (literal_nodes opt_items) = true) by (vm_compute; reflexivity).
           rewrite forallb_forall in F. apply Nat.ltb_lt. exact (F _ I). }
  split; [vm_compute; discriminate|]. split; [vm_compute; reflexivity|].
  eexists _, _. split; [vm_compute; reflexivity|]. vm_compute; reflexivity.
Qed.
Print Assumptions C36_branch_removal.
Print Assumptions C36_nothing_left.
Print Assumptions C36_no_idle_loop.
Print Assumptions C36_whole_optimiser.

(** ** C37: a named constant that decides two branches

    Whatever the branches are, the second [if] on the same literal 0 keeps the
    branch for a condition that holds. *)
Lemma ifr_grows_block b : (forall s, In s b -> forall w, exists new, snd (ifr_stmt s w) = new ++ w) ->
  forall w, exists new, snd (ifr_block b w) = new ++ w.
Proof.
  induction b as [|s b IH]; intros H w; cbn [ifr_block]; [now exists []|].
  destruct (H s (or_introl eq_refl) w) as [n1 E1]. destruct (ifr_stmt s w) as [s1 w1]. cbn [snd] in E1. subst w1.
  destruct (IH (fun s I => H s (or_intror I)) (n1 ++ w)) as [n2 E2].
  destruct (ifr_block b (n1 ++ w)) as [b1 w2]. cbn [snd] in *. subst. exists (n2 ++ n1). now rewrite app_assoc.
Qed.
Lemma ifr_grows s : forall w, exists new, snd (ifr_stmt s w) = new ++ w.
Proof.
  assert (G : forall o, oall (fun s => forall w, exists new, snd (ifr_stmt s w) = new ++ w) o ->
            forall w, exists new, snd (ifr_oblock o w) = new ++ w).
  { intros [b|]; cbn [oall ifr_oblock]; intros F w; [|now exists []]. rewrite Forall_forall in F.
    destruct (ifr_grows_block b F w) as [n E]. destruct (ifr_block b w). exists n. exact E. }
  induction s using rstmt_nested; intros w; try (now exists []).
  - rewrite ifr_if. destruct (G t H w) as [n1 E1]. destruct (ifr_oblock t w) as [t1 w1]. cbn [snd] in E1. subst w1.
    destruct (G f H0 (n1 ++ w)) as [n2 E2]. destruct (ifr_oblock f (n1 ++ w)) as [f1 w2]. cbn [snd] in E2. subst w2.
    rewrite app_assoc.
    destruct c; try (now exists (n2 ++ n1)). destruct (negb _); [now exists (n2 ++ n1)|].
    exists (id :: n2 ++ n1). reflexivity.
  - rewrite ifr_while. destruct (G b H w) as [n1 E1]. destruct (ifr_oblock b w) as [t1 w1]. cbn [snd] in E1. subst w1.
    destruct c; try (now exists n1). destruct (_ =? 0); now exists n1.
  - rewrite ifr_for. rewrite Forall_forall in H. destruct (ifr_grows_block body H w) as [n1 E1].
    destruct (ifr_block body w) as [b1 w1]. exists n1. exact E1.
Qed.
Lemma ifr_oblock_grows o : forall w, exists new, snd (ifr_oblock o w) = new ++ w.
Proof.
  destruct o as [b|]; intros w; cbn [ifr_oblock]; [|now exists []].
  destruct (ifr_grows_block b (fun s _ => ifr_grows s) w) as [n E]. destruct (ifr_block b w). exists n. exact E.
Qed.
Theorem C37_second_branch : forall f args lend id lo l1 t1 f1 l2 t2 f2 l3,
  exists b1 b2,
    if_remove [RFunc f args [RIf l1 (RInt id 0 lo) t1 f1; RIf l2 (RInt id 0 lo) (Some t2) f2;
                             RReturn l3 (Some (RInt id 0 lo))] lend]
    = [RFunc f args [RIf l1 (RInt id 1 lo) b1 None; RIf l2 (RInt id 1 lo) (Some b2) None;
                     RReturn l3 (Some (RInt id 1 lo))] lend] /\
    List.length b2 = List.length t2.
Proof.
  intros. unfold if_remove. cbn [ifr_items ifr_block].
  assert (First : exists b w, ifr_stmt (RIf l1 (RInt id 0 lo) t1 f1) [] = (RIf l1 (RInt id 0 lo) b None, w) /\ In id w).
  { rewrite ifr_if. destruct (ifr_oblock t1 []) as [a w1]. destruct (ifr_oblock f1 w1) as [b w2].
    unfold read_lit. destruct (existsb (Nat.eqb id) w2) eqn:X; cbn [Z.eqb negb].
    - exists a, w2. split; [reflexivity|]. apply existsb_exists in X. destruct X as (y & Y & Z).
      apply Nat.eqb_eq in Z. now subst.
    - exists b, (id :: w2). split; [reflexivity|now left]. }
  destruct First as (b1 & w1 & -> & I1).
  assert (Second : exists b w, ifr_stmt (RIf l2 (RInt id 0 lo) (Some t2) f2) w1 = (RIf l2 (RInt id 0 lo) (Some b) None, w) /\
            In id w /\ List.length b = List.length t2).
  { rewrite ifr_if. cbn [ifr_oblock]. destruct (ifr_grows_block t2 (fun s _ => ifr_grows s) w1) as [n1 E1].
    assert (Len : forall b w, List.length (fst (ifr_block b w)) = List.length b).
    { clear. induction b as [|s b IH]; intros w; [reflexivity|]. cbn [ifr_block]. destruct (ifr_stmt s w) as [s1 w1].
      specialize (IH w1). destruct (ifr_block b w1). cbn [fst List.length] in *. now rewrite IH. }
    specialize (Len t2 w1). destruct (ifr_block t2 w1) as [a w2]. cbn [fst snd] in *. subst w2.
    destruct (ifr_oblock_grows f2 (n1 ++ w1)) as [n2 E2]. destruct (ifr_oblock f2 (n1 ++ w1)) as [b w3]. cbn [snd] in E2. subst w3.
    assert (I3 : In id (n2 ++ n1 ++ w1)) by (apply in_or_app; right; apply in_or_app; now right).
    rewrite read_lit_in by exact I3. cbn [Z.eqb negb]. eauto. }
  destruct Second as (b2 & w2 & -> & I2 & Len). cbn [ifr_stmt map set_item set_stmt set_expr option_map].
  rewrite !read_lit_in by exact I2. do 2 eexists. split; [reflexivity|]. rewrite map_length. exact Len.
Qed.
(** A program whose result depends on the optimiser. *)
Definition shared_text : string := "const K = 0
function main()
  var s = 7
  if (K)
    s = s + 1000
  end
  if (K)
    s = s + 1000
  end
  return s + K
end
"%string.
Theorem C37_optimiser_changes_result :
  main_result false shared_text = Ok [SeenFlag true; SeenCall true (ShScalar (SInt 7)) None] /\
  main_result true shared_text = Ok [SeenFlag true; SeenCall true (ShScalar (SInt 1008)) None].
Proof. split; vm_compute; reflexivity. Qed.
Print Assumptions C37_second_branch.
Print Assumptions C37_optimiser_changes_result.
