(** C86-C88: which programs the compiler turns into code, and what else it can do. *)
From Coq Require Import ZArith List Bool Lia String.
From Verif Require Import Base BaseFacts Program Source Lexer LexSpec LexFacts PropertiesLexer Ast Parser ParseSpec ParseFacts ParseSafe PropertiesParser.
From Verif Require Import Sema Optimize Codegen Build SemaSpec SemaFacts BuildSpec ParseFine PrintFacts RunSpec.
From Verif Require Import CompileSpec CompileFacts CompileSafe.
Import ListNotations.
Open Scope Z_scope.

(** ** C86: an analysed program is compiled unless a constant stands for a variable

    Once the analysis and the optimiser have accepted a program, code generation
    cannot report an error, and it aborts exactly if some constant is left in a
    place where the address of a variable is needed. *)
Theorem C86_compiles : forall fuel fs addr on regs m items n items' n',
  m <> [] -> analysed fuel fs addr regs m items n -> run_optimize on items n = Ok (items', n') ->
  (no_constant_addressed items' -> exists p, build fuel fs addr on regs m = Ok (Some p)) /\
  (~ no_constant_addressed items' -> build fuel fs addr on regs m = Stuck SAssert).
Proof.
  intros fuel fs addr on regs m items n items' n' M (src & m' & P & S0) O.
  assert (CF : Forall child_fine (source_children regs src)).
  { apply Forall_app. split; apply Forall_forall; intros c I0; apply in_map_iff in I0; destruct I0 as (y & <- & I1); [exact Logic.I|].
    pose proof (parse_sources_fine _ _ _ _ _ _ _ _ (Forall_nil _) (Forall_nil _) P) as IF. rewrite Forall_forall in IF. exact (IF _ I1). }
  destruct (sema_optimize_generate _ _ _ _ _ _ _ CF S0 O) as (A & B & _).
  unfold build. destruct m as [|s0 m0]; [congruence|]. rewrite P. cbn [bind]. unfold compile. rewrite S0. cbn [bind]. rewrite O. cbn [bind].
  split; intros H; [destruct (A H) as [p ->]; cbn [bind]; eauto|rewrite (B H); reflexivity].
Qed.

(** The optimiser never introduces such a use, so a program without one can be
    compiled whenever the optimiser gets through. *)
Theorem C86_optimiser_keeps : forall fuel fs addr on regs m items n items' n',
  analysed fuel fs addr regs m items n -> run_optimize on items n = Ok (items', n') ->
  no_constant_addressed items -> no_constant_addressed items'.
Proof.
  intros fuel fs addr on regs m items n items' n' (src & m' & P & S0) O.
  assert (CF : Forall child_fine (source_children regs src)).
  { apply Forall_app. split; apply Forall_forall; intros c I0; apply in_map_iff in I0; destruct I0 as (y & <- & I1); [exact Logic.I|].
    pose proof (parse_sources_fine _ _ _ _ _ _ _ _ (Forall_nil _) (Forall_nil _) P) as IF. rewrite Forall_forall in IF. exact (IF _ I1). }
  apply (sema_optimize_generate _ _ _ _ _ _ _ CF S0 O).
Qed.

(** ** C87: the compiler does not crash on plain sources

    [answers]: a result or an error message. *)
Definition answers {A} (r : res A) : Prop := (exists a, r = Ok a) \/ (exists e l, r = Err e l).

(** A source held in memory on which the lexer answers (see C17) and which
    imports nothing. *)
Definition readable (s : source_t) : Prop :=
  exists text, so_data s = Some text /\
    forall file, answers (lex file text) /\ forall ts, lex file text = Ok ts -> ~ In TOK_IMPORT (map tk ts).

Lemma items_no_import fs src n : forall m s, good False (p_toks s) -> (4 * ParseSafe.len s + 10 <= n)%nat ->
  okout False (fun '(_, m', _) => m' = m) (parse_items fs src n m s).
Proof.
  induction n as [|n IH]; intros m s G L; [lia|].
  rewrite parse_items_S.
  eapply okout_bind; [apply found_eof; eassumption|]. intros [[t|] s1] H1.
  { cbn [okout]. auto. }
  destruct H1 as [-> NE].
  eapply okout_bind; [apply pop_ok; eassumption|]. intros [t s1] ([O1 _] & L1 & (r & ER) & IM & G1).
  specialize (NE _ _ ER). specialize (G1 NE).
  destruct (kind_of (tk t)) eqn:KT;
    try (eapply okout_bind; [apply pop_ok; eassumption|]; intros [t2 s2] (_ & _ & _ & IM2 & _); now apply perr_ok).
  - eapply okout_bind; [apply (function_ok False n); [assumption|lia]|]. intros [f s2] (G2 & L2 & O2).
    eapply okout_bind; [apply IH; [assumption|lia]|]. intros [[r' m1] s3] ->. reflexivity.
  - eapply okout_bind; [apply (decl_var_ok False n); [assumption|lia]|]. intros [[[x l] e] s2] (G2 & L2 & O2).
    eapply okout_bind; [apply IH; [assumption|lia]|]. intros [[r' m1] s3] ->. reflexivity.
  - apply IH; [assumption|lia].
  - eapply okout_bind; [apply (decl_var_ok False n); [assumption|lia]|]. intros [[[x l] e] s2] (G2 & L2 & O2).
    eapply okout_bind; [apply IH; [assumption|lia]|]. intros [[r' m1] s3] ->. reflexivity.
  - destruct (IM eq_refl).
Qed.

Lemma good_no_import (imp : Prop) ts : (In TOK_IMPORT (map tk ts) -> imp) ->
  forall le, ~ In TOK_EOF (map tk ts) -> good imp (ts ++ [Token TOK_EOF le]).
Proof.
  intros HI le. induction ts as [|t ts IH]; intros H; cbn [app good].
  - split; [discriminate|reflexivity].
  - split.
    + intros K. apply HI. left. destruct (tk t); try discriminate K. reflexivity.
    + destruct (kind_eqb (kind_of (tk t)) K_EOF) eqn:K.
      * exfalso. apply H. left. apply kind_eqb_eq in K. destruct (tk t); try discriminate K. reflexivity.
      * apply IH; [intros HH; apply HI; now right|]. intros HH; apply H; now right.
Qed.

Lemma parse_sources_settles fs m : Forall readable m -> forall k index left acc,
  0 <= index -> (List.length m <= k + Z.to_nat index)%nat -> settles (parse_sources k fs m index left acc) any.
Proof.
  intros R k. induction k as [|k IH]; intros index left acc I0 L; cbn [parse_sources];
    destruct (znth m index) as [src|] eqn:E; try exact Logic.I.
  - exfalso. apply znth_some in E. unfold zlen in E. lia.
  - pose proof (znth_In _ _ _ E) as IN.
    pose proof (proj1 (Forall_forall _ _) R _ IN) as (text & -> & AN).
    destruct (AN index) as [[(ts0 & T)|(e & l & T)] NI]; rewrite T; cbn [bind]; [|exact Logic.I].
    specialize (NI _ T). pose proof (lex_from_outcomes index (List.length (cstr text)) (cstr text) 1 (le_n _)) as O.
    unfold lex in T. rewrite T in O. destruct O as (ts & -> & NE). clear T.
    assert (G : good False (ts ++ [Token TOK_EOF (Line index (1 + newlines (cstr text)))])).
    { apply good_no_import; [|exact NE]. intros HH. apply NI. rewrite map_app, in_app_iff. auto. }
    pose proof (items_no_import fs src (parse_fuel (ts ++ [Token TOK_EOF (Line index (1 + newlines (cstr text)))])) m
                  (PSt (ts ++ [Token TOK_EOF (Line index (1 + newlines (cstr text)))]) (Line 0 0) [] left) G) as S0.
    specialize (S0 ltac:(unfold parse_fuel, ParseSafe.len; cbn [p_toks]; lia)).
    unfold parse. destruct (parse_items _ _ _ _ _) as [[[a b] c]| |]; cbn [okout bind] in *; [|exact Logic.I|destruct S0; contradiction].
    subst b. apply IH; lia.
Qed.

(** Sources in memory, without imports, whose syntax tree is plain (if they have
    one), for any registered syscalls, addresses and optimiser setting: the
    compiler answers, or overflows an integer while folding constants. *)
Theorem C87_no_crash : forall fs addr on regs m,
  Forall readable m ->
  (forall is m', parse_sources (List.length m) fs m 0 [] [] = Ok (is, m') -> plain_source regs is) ->
  answers (build (List.length m) fs addr on regs m) \/ build (List.length m) fs addr on regs m = Stuck SOverflow.
Proof.
  intros fs addr on regs m R P. unfold answers, build. destruct m as [|s0 m0]; [left; left; eauto|].
  pose proof (parse_sources_settles fs _ R (List.length (s0 :: m0)) 0 [] [] ltac:(lia) ltac:(lia)) as PS.
  destruct (parse_sources _ _ _ _ _ _) as [[is m']|e l|x] eqn:E; cbn [bind]; [|left; right; eauto|contradiction].
  pose proof (compile_soft addr on regs is (parse_sources_fine _ _ _ _ _ _ _ _ (Forall_nil _) (Forall_nil _) E) (P _ _ eq_refl)) as C.
  destruct (compile addr on regs is) as [p|e l|x]; cbn [bind soft] in *; [left; left; eauto|left; right; eauto|right; congruence].
Qed.

(** The overflow needs constants to fold: with the optimiser off and no operator
    at the top of a global initialiser there is always an answer. *)
Theorem C87_always_answers : forall fs addr regs m,
  Forall readable m ->
  (forall is m', parse_sources (List.length m) fs m 0 [] [] = Ok (is, m') -> plain_source regs is /\
     forall x l e, In (TVar x l (Some e)) is \/ In (TConst x l (Some e)) is -> operator_free e) ->
  answers (build (List.length m) fs addr false regs m).
Proof.
  intros fs addr regs m R P. unfold answers, build. destruct m as [|s0 m0]; [left; eauto|].
  pose proof (parse_sources_settles fs _ R (List.length (s0 :: m0)) 0 [] [] ltac:(lia) ltac:(lia)) as PS.
  destruct (parse_sources _ _ _ _ _ _) as [[is m']|e l|x] eqn:E; cbn [bind]; [|right; eauto|contradiction].
  destruct (P _ _ eq_refl) as [P1 P2].
  pose proof (compile_settles addr regs is (parse_sources_fine _ _ _ _ _ _ _ _ (Forall_nil _) (Forall_nil _) E) P1 P2) as C.
  destruct (compile addr false regs is) as [p|e l|x]; cbn [bind settles] in *; [left; eauto|right; eauto|contradiction].
Qed.

(** *** A plain source *)
Definition mem (x : bytes) (xs : list bytes) : bool := if in_dec (list_eq_dec Z.eq_dec) x xs then true else false.
Lemma mem_ok x xs : mem x xs = false -> ~ In x xs.
Proof. unfold mem. destruct (in_dec _ x xs); [discriminate|auto]. Qed.
Fixpoint closed_b (e : expr) : bool :=
  match e with EInt _ _ => true | EUn UNeg _ a => closed_b a | EBin _ _ a b => closed_b a && closed_b b | _ => false end.
Fixpoint tame_b (fs : list bytes) (e : expr) : bool :=
  match e with
  | EIdent x _ => negb (mem x fs)
  | EUn UNeg _ a => closed_b a
  | EUn UNot _ _ => false
  | EBin _ _ a b => tame_b fs a && tame_b fs b
  | _ => true
  end.
Definition initialiser_b (fs : list bytes) (e : expr) : bool :=
  match e with EBin _ _ _ _ | EUn _ _ _ => tame_b fs e | _ => true end.
Lemma closed_b_ok e : closed_b e = true -> closed e.
Proof.
  induction e; cbn [closed_b closed]; try discriminate; auto.
  - intros H. apply andb_prop in H. destruct H. auto.
  - destruct o; [auto|discriminate].
Qed.
Lemma tame_b_ok fs e : tame_b fs e = true -> tame fs e.
Proof.
  induction e; cbn [tame_b tame]; auto; try discriminate.
  - intros H. apply mem_ok. now apply negb_true_iff.
  - intros H. apply andb_prop in H. destruct H. auto.
  - destruct o; [apply closed_b_ok|discriminate].
Qed.
Fixpoint distinct_b (xs : list bytes) : bool :=
  match xs with [] => true | x :: r => negb (mem x r) && distinct_b r end.
Lemma distinct_b_ok xs : distinct_b xs = true -> NoDup xs.
Proof.
  induction xs as [|x xs IH]; cbn [distinct_b]; intros H; [constructor|]. apply andb_prop in H. destruct H as [H1 H2].
  constructor; [apply mem_ok; now apply negb_true_iff|auto].
Qed.
Definition plain_b (regs : list (bytes * Z)) (is : list item) : bool :=
  distinct_b (map fst regs) &&
  forallb (fun e => match e with EMember x _ _ _ => negb (mem x (callable_names regs is)) | _ => true end) (source_exprs is) &&
  forallb (fun x => negb (mem x (constant_names is))) (variable_names is) &&
  forallb (fun i => match i with TVar _ _ (Some e) | TConst _ _ (Some e) => initialiser_b (callable_names regs is) e | _ => true end) is.
Lemma plain_b_ok regs is : plain_b regs is = true -> plain_source regs is.
Proof.
  unfold plain_b. rewrite !andb_true_iff, !forallb_forall. intros [[[A B] C] D]. constructor.
  - now apply distinct_b_ok.
  - intros x l m lm I0. specialize (B _ I0). cbn in B. apply mem_ok. now apply negb_true_iff.
  - intros x I0. specialize (C _ I0). apply mem_ok. now apply negb_true_iff.
  - intros x l e [I0|I0]; specialize (D _ I0); cbn in D; destruct e; cbn [initialiser_ok initialiser_b] in *; auto; now apply tame_b_ok.
Qed.

Definition plain_text : string := "const LIMIT = 4 * 3
var total = LIMIT + 1
var name = ""log""
function push(x)
  var a = [x, LIMIT, -2]
  a[1] = total
  if (x < LIMIT)
    total = total + a[0]
  else
    puts(name)
  end
  return a
end
function main()
  var i = 0
  for (i = 0 to LIMIT)
    push(i * 2)
  end
  while (not (total < 3))
    total = total - 1
  end
  return total
end
"%string.
Definition plain_m : list source_t := snd (sm_load_from_string [] (bs plain_text)).
Definition plain_items : list item :=
  match parse_sources 1 (fun _ => None) plain_m 0 [] [] with Ok (is, _) => is | _ => [] end.
Lemma plain_readable : Forall readable plain_m.
Proof.
  constructor; [|constructor]. exists (bs plain_text). split; [reflexivity|]. intros file. 
  assert (E : exists ts, lex file (bs plain_text) = Ok ts /\
                forallb (fun t => match tk t with TOK_IMPORT => false | _ => true end) ts = true) by (eexists; split; vm_compute; reflexivity).
  destruct E as (ts & E & F). split; [left; eauto|]. intros ts0 E0 I0. rewrite E in E0. inversion E0; subst.
  apply in_map_iff in I0. destruct I0 as (t & K & I0). rewrite forallb_forall in F. specialize (F _ I0). rewrite K in F. discriminate F.
Qed.
Example C87_ex : Forall readable plain_m /\ plain_source [(bs "puts", 1)] plain_items /\
  (forall is m', parse_sources (List.length plain_m) (fun _ => None) plain_m 0 [] [] = Ok (is, m') -> plain_source [(bs "puts", 1)] is) /\
  match build (List.length plain_m) (fun _ => None) Z.of_nat true [(bs "puts", 1)] plain_m with Ok (Some _) => True | _ => False end.
Proof.
  assert (P : plain_source [(bs "puts", 1)] plain_items) by (apply plain_b_ok; vm_compute; reflexivity).
  split; [exact plain_readable|]. split; [exact P|]. split.
  - change (List.length plain_m) with 1%nat. intros is m' E. replace is with plain_items; [exact P|]. unfold plain_items. rewrite E. reflexivity.
  - vm_compute. exact Logic.I.
Qed.

Print Assumptions C86_compiles.
Print Assumptions C86_optimiser_keeps.
Print Assumptions C87_no_crash.
Print Assumptions C87_always_answers.

(** Programs that satisfy, and that do not satisfy, the condition of C86. *)
Definition tree_of (text : string) : list ritem * nat :=
  match (let m := snd (sm_load_from_string [] (bs text)) in
         '(items, _) <- parse_sources 1 (fun _ => None) m 0 [] [] ;;
         run_sema Z.of_nat (map CItem items)) with
  | Ok r => r | _ => ([], 0%nat)
  end.
Lemma tree_analysed text : snd (tree_of text) <> 0%nat ->
  analysed 1 (fun _ => None) Z.of_nat [] (snd (sm_load_from_string [] (bs text))) (fst (tree_of text)) (snd (tree_of text)).
Proof.
  unfold tree_of. intros N.
  destruct (parse_sources 1 (fun _ => None) (snd (sm_load_from_string [] (bs text))) 0 [] []) as [[src m']|?|?] eqn:P;
    cbn [bind] in *; [|cbn in N; congruence..].
  destruct (run_sema Z.of_nat (map CItem src)) as [[i0 n0]|?|?] eqn:R; [|cbn in N; congruence..]. now exists src, m'.
Qed.
Definition clean_b (items : list ritem) : bool := forallb (fun d => negb (vd_const d)) (addressed items).
Lemma clean_b_ok items : clean_b items = true <-> no_constant_addressed items.
Proof.
  unfold clean_b, no_constant_addressed. rewrite forallb_forall. split; intros H d I0; specialize (H d I0);
    [now apply negb_true_iff|now rewrite H].
Qed.

(** ** C88 (finding): a constant used as a variable aborts the compiler

    Each of these texts passes the analysis, and then an assertion of the code
    generator fails: the constant has no place at run time. *)
Definition constant_called : string := "const F = 3
function main()
  return F(1)
end
"%string.
Definition constant_counts : string := "const I = 3
function main()
  for (I = 0 to 5)
    var x = 1
  end
  return 0
end
"%string.
Definition constant_element : string := "const A = 3
function main()
  A[0] = 1
  return 0
end
"%string.
Definition constant_member_set : string := "const A = 3
function main()
  A.size = 1
  return 0
end
"%string.
Definition constant_member : string := "const A = 3
function main()
  return A.size
end
"%string.
Theorem C88_constant_as_variable :
  forall text, In text [constant_called; constant_counts; constant_element; constant_member_set; constant_member] ->
  forall on, let m := snd (sm_load_from_string [] (bs text)) in
  (exists items n, analysed 1 (fun _ => None) Z.of_nat [] m items n /\ ~ no_constant_addressed items) /\
  build 1 (fun _ => None) Z.of_nat on [] m = Stuck SAssert.
Proof.
  intros text I0 on. cbv zeta. split.
  - exists (fst (tree_of text)), (snd (tree_of text)). split.
    + apply tree_analysed. repeat (destruct I0 as [<-|I0]; [vm_compute; discriminate|]). destruct I0.
    + rewrite <- clean_b_ok. repeat (destruct I0 as [<-|I0]; [vm_compute; discriminate|]). destruct I0.
  - repeat (destruct I0 as [<-|I0]; [destruct on; vm_compute; reflexivity|]). destruct I0.
Qed.
Print Assumptions C88_constant_as_variable.

Example C86_ex :
  plain_m <> [] /\ snd (tree_of constant_called) <> 0%nat /\
  let text := "const K = 2
var g = K
function main()
  g = K * g + K
  return g
end
"%string in
  snd (tree_of text) <> 0%nat /\ no_constant_addressed (fst (tree_of text)) /\
  exists p, build 1 (fun _ => None) Z.of_nat true [] (snd (sm_load_from_string [] (bs text))) = Ok (Some p).
Proof.
  split; [discriminate|]. split; [vm_compute; discriminate|]. cbv zeta. split; [vm_compute; discriminate|].
  split; [apply clean_b_ok; vm_compute; reflexivity|]. eexists. vm_compute. reflexivity.
Qed.

(** The overflow C87 allows does happen, with the optimiser on or off. *)
Example C87_overflow : forall on, build 1 (fun _ => None) Z.of_nat on [] (snd (sm_load_from_string [] (bs "var g = 2147483647 + 1
"))) = Stuck SOverflow.
Proof. intros [|]; vm_compute; reflexivity. Qed.

(** ** C107 The syscalls a program asks for

    The syscall table of a compiled program is the list of names registered with
    the compiler, in that order, each once, and none is bound to a function yet -
    whichever of them the program uses. *)
Theorem C107_syscall_table : forall fuel fs addr on regs m p, build fuel fs addr on regs m = Ok (Some p) ->
  p_syscalls p = map (fun r => Sysc (fst r) None) regs /\ NoDup (map fst regs).
Proof.
  intros fuel fs addr on regs m p B. destruct (build_parts _ _ _ _ _ _ _ B) as (src & m' & items & n & items' & n' & E1 & E2 & _ & E3 & _ & G).
  assert (F : Forall child_fine (map (fun x => CSys (fst x) (snd x)) regs ++ map CItem src)).
  { apply Forall_app. split.
    - apply Forall_forall. intros c I0. apply in_map_iff in I0. destruct I0 as (x & <- & _). exact Logic.I.
    - apply Forall_forall. intros c I0. apply in_map_iff in I0. destruct I0 as (x & <- & I0).
      apply (proj1 (Forall_forall _ _) (parse_sources_fine _ _ _ _ _ _ _ _ (Forall_nil _) (Forall_nil _) E1) _ I0). }
  destruct (sema_optimize_syscalls _ _ _ _ _ _ _ _ F E2 E3 G) as [P N].
  assert (C : child_sys (map (fun x => CSys (fst x) (snd x)) regs ++ map CItem src) = map fst regs).
  { unfold child_sys. rewrite flat_map_app. replace (flat_map _ (map CItem src)) with (@nil bytes).
    - rewrite app_nil_r. clear. induction regs as [|r l IH]; cbn [map flat_map app fst]; congruence.
    - clear. induction src as [|x l IH]; cbn [map flat_map app]; congruence. }
  rewrite C in P, N. split; [|exact N]. rewrite P, map_map. reflexivity.
Qed.
(** Finding: with a name registered twice no program at all is compiled.  The
    check for duplicates reports the second one at a token it does not have. *)
Theorem C107_registered_twice : forall fuel fs addr on regs m p, ~ NoDup (map fst regs) ->
  build fuel fs addr on regs m <> Ok (Some p).
Proof. intros fuel fs addr on regs m p H B. apply H. exact (proj2 (C107_syscall_table _ _ _ _ _ _ _ B)). Qed.
Definition small_m : list source_t := snd (sm_load_from_string [] (bs "function main()
  return puts(1)
end
"%string)).
Example C107_ex :
  (exists p, build 1 (fun _ => None) Z.of_nat true [(bs "getc", 0); (bs "puts", 1)] small_m = Ok (Some p) /\
     p_syscalls p = [Sysc (bs "getc") None; Sysc (bs "puts") None]) /\
  ~ NoDup (map fst [(bs "puts", 1); (bs "puts", 1)]) /\
  build 1 (fun _ => None) Z.of_nat true [(bs "puts", 1); (bs "puts", 1)] small_m = Stuck SNull.
Proof.
  split; [|split].
  - assert (B : exists p, build 1 (fun _ => None) Z.of_nat true [(bs "getc", 0); (bs "puts", 1)] small_m = Ok (Some p)) by (eexists; vm_compute; reflexivity).
    destruct B as (p & B). exists p. split; [exact B|]. exact (proj1 (C107_syscall_table _ _ _ _ _ _ _ B)).
  - intros H. inversion H as [|? ? N _]; subst. apply N. left. reflexivity.
  - vm_compute. reflexivity.
Qed.
Print Assumptions C107_syscall_table.
Print Assumptions C107_registered_twice.
