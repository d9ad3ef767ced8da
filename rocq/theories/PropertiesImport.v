(** C89-C91: imports.  The vocabulary ([consists_of], [is_file]) is at the top of
    ImportFacts.v; [already] and [imported_path] are those of C15 and C16. *)
From Coq Require Import ZArith List Bool Lia String.
From Verif Require Import Base BaseFacts Program Source SourceProofs PropertiesImage Lexer LexSpec LexFacts PropertiesLexer Ast Parser ParseFacts ParseSafe PropertiesParser ParseTail
  Sema Optimize Codegen Build BuildSpec ParseFine CompileSpec CompileSafe PropertiesCompile ImportFacts.
Import ListNotations.
Open Scope Z_scope.

(** ** C89: every file is compiled once, whatever imports it

    [m0] are the sources the host loaded, [m] all sources when the front end is
    done.  The program consists of the declarations of every source in [m], each
    once and in this order.  The sources after [m0] are files, at different
    paths, and each is there because some source imports it; and every import of
    every source is of a source in [m]. *)
Theorem C89_each_file_once : forall fuel fs m0 src m,
  parse_sources fuel fs m0 0 [] [] = Ok (src, m) ->
  exists new parts,
    m = m0 ++ new /\ src = List.concat parts /\ Forall2 (consists_of fs) m parts /\
    Forall (is_file fs) new /\ NoDup (map so_path new) /\
    (forall s, In s new -> ~ In (so_path s) (map so_path m0)) /\
    (forall s, In s new -> exists s0 is name l,
       In (s0, is) (combine m parts) /\ In (TImport name l) is /\ so_path s = imported_path s0 name) /\
    (forall s0 is name l, In (s0, is) (combine m parts) -> In (TImport name l) is ->
       already m (imported_path s0 name)).
Proof.
  intros fuel fs m0 src m E. destruct (sources_split fs fuel m0 0 [] [] src m ltac:(lia) E) as (new & parts & M & [G1 G2 G3] & S0 & F & A & B).
  change (Z.to_nat 0) with 0%nat in *. cbn [skipn] in *. exists new, parts. auto 9.
Qed.

(** ** C90: imports end

    [import_of ts name]: an [import] token followed by the string [name].  If all
    imports that can be reached from the sources [m0] lead to finitely many paths, the front end ends after at most as many sources, even
    if the files import each other in circles; it never gets to a source that
    could not be loaded. *)
Theorem C90_imports_end : forall fs m0 paths,
  Forall (fun s => so_data s <> None) m0 ->
  (forall s text file ts name, In s m0 \/ (is_file fs s /\ In (so_path s) paths) -> so_data s = Some text ->
     lex file text = Ok ts -> import_of ts name -> In (imported_path s name) paths) ->
  forall k, (List.length m0 + List.length paths <= k)%nat ->
  match parse_sources k fs m0 0 [] [] with
  | Ok (_, m) => (List.length m <= List.length m0 + List.length paths)%nat
  | Err _ _ => True
  | Stuck x => exists s text file,
      (In s m0 \/ (is_file fs s /\ In (so_path s) paths)) /\ so_data s = Some text /\
      (lex file text = Stuck x \/ (x = SAssert /\ exists ts, lex file text = Ok ts /\ In TOK_IMPORT (map tk ts)))
  end.
Proof.
  intros fs m0 paths D C k L.
  pose proof (sources_end fs m0 paths D C k [] 0 [] [] ltac:(lia) (grown_nil fs m0) (fun p (I0 : In p []) => match I0 with end) ltac:(lia)) as F.
  rewrite app_nil_r in F. destruct (parse_sources k fs m0 0 [] []) as [[src m]|e l|x] eqn:E; cbn [front_ok] in F; auto.
  destruct F as (new & -> & G & IC). pose proof (NoDup_incl_length (gr_once _ _ _ G) IC) as H. rewrite map_length in H. rewrite app_length. lia.
Qed.

(** In particular it does not run forever and does not read a source without text. *)
Theorem C90_no_endless_import : forall fs m0 paths,
  Forall (fun s => so_data s <> None) m0 ->
  (forall s text file ts name, In s m0 \/ (is_file fs s /\ In (so_path s) paths) -> so_data s = Some text ->
     lex file text = Ok ts -> import_of ts name -> In (imported_path s name) paths) ->
  forall k, (List.length m0 + List.length paths <= k)%nat ->
  parse_sources k fs m0 0 [] [] <> Stuck SDiverge /\ parse_sources k fs m0 0 [] [] <> Stuck SNull.
Proof.
  intros fs m0 paths D C k L. pose proof (C90_imports_end fs m0 paths D C k L) as H.
  destruct (parse_sources k fs m0 0 [] []) as [r|e l|x]; split; try discriminate;
    (intros E; inversion E; subst; destruct H as (s & text & file & _ & _ & [H|[H _]]); [|discriminate];
     pose proof (lex_from_outcomes file (List.length (cstr text)) (cstr text) 1 (le_n _)) as O; unfold lex in H; rewrite H in O; contradiction).
Qed.

(** With C87: if moreover the lexer answers on every source and the syntax tree
    is plain, the compiler answers, overflows while folding constants, or trips
    the assertion of C77 over a misplaced [import]. *)
Theorem C90_build_answers : forall fs m0 paths addr on regs,
  Forall (fun s => so_data s <> None) m0 ->
  (forall s text file ts name, In s m0 \/ (is_file fs s /\ In (so_path s) paths) -> so_data s = Some text ->
     lex file text = Ok ts -> import_of ts name -> In (imported_path s name) paths) ->
  (forall s text file, In s m0 \/ (is_file fs s /\ In (so_path s) paths) -> so_data s = Some text -> answers (lex file text)) ->
  forall k, (List.length m0 + List.length paths <= k)%nat ->
  (forall is m, parse_sources k fs m0 0 [] [] = Ok (is, m) -> plain_source regs is) ->
  answers (build k fs addr on regs m0) \/ build k fs addr on regs m0 = Stuck SOverflow \/
  (build k fs addr on regs m0 = Stuck SAssert /\ parse_sources k fs m0 0 [] [] = Stuck SAssert /\
   exists s text file ts, (In s m0 \/ (is_file fs s /\ In (so_path s) paths)) /\ so_data s = Some text /\
     lex file text = Ok ts /\ In TOK_IMPORT (map tk ts)).
Proof.
  intros fs m0 paths addr on regs D C X k L P. pose proof (C90_imports_end fs m0 paths D C k L) as H.
  unfold answers, build. destruct m0 as [|s0 m1]; [left; left; eauto|].
  destruct (parse_sources k fs (s0 :: m1) 0 [] []) as [[is m]|e l|x] eqn:E; cbn [bind]; [|left; right; eauto|].
  - pose proof (compile_soft addr on regs is (parse_sources_fine _ _ _ _ _ _ _ _ (Forall_nil _) (Forall_nil _) E) (P _ _ eq_refl)) as CS.
    destruct (compile addr on regs is) as [p|e l|x]; cbn [bind soft] in *; [left; left; eauto|left; right; eauto|right; left; congruence].
  - destruct H as (s & text & file & KN & T & [H|(-> & ts & H & I0)]).
    + destruct (X _ _ file KN T) as [[a A]|(e & l & A)]; rewrite H in A; discriminate.
    + right. right. split; [reflexivity|]. split; [reflexivity|]. exists s, text, file, ts. auto.
Qed.

(** Two files that import each other, and one of them itself. *)
Definition file_a : bytes := bs "import ""b.n""
import ""a.n""
function f()
end
".
Definition file_b : bytes := bs "import ""a.n""
function g()
end
".
Definition two_files (p : bytes) : option bytes :=
  if list_eq_dec Z.eq_dec p (bs "d/a.n") then Some file_a
  else if list_eq_dec Z.eq_dec p (bs "d/b.n") then Some file_b else None.
Definition two_m : list source_t := snd (sm_load two_files [] (bs "d/a.n")).
Definition two_paths : list bytes := [bs "d/a.n"; bs "d/b.n"].
Lemma import_of_dec ts name : import_of ts name -> In name
  ((fix go ts := match ts with
    | Token TOK_IMPORT _ :: (Token (TOK_STRING n) _ :: _) as r => n :: go r
    | _ :: r => go r
    | [] => []
    end) ts).
Proof.
  intros (a & l1 & l2 & b & ->). induction a as [|[k l] a IH]; cbn [app]; [left; reflexivity|].
  destruct k; try exact IH. destruct a as [|[k2 l3] a]; cbn [app] in *; [exact IH|]. destruct k2; try exact IH. right. exact IH.
Qed.
Lemma two_known s : In s two_m \/ (is_file two_files s /\ In (so_path s) two_paths) ->
  exists text, so_data s = Some text /\ base_path (so_path s) = bs "d" /\ (text = file_a \/ text = file_b).
Proof.
  intros [I0|[F I0]].
  - destruct I0 as [<-|[]]. exists file_a. split; [reflexivity|]. split; [reflexivity|]. now left.
  - unfold is_file in F. destruct I0 as [P|[P|[]]]; rewrite <- P in F.
    + exists file_a. rewrite <- P. split; [|split; [reflexivity|now left]].
      assert (X : s = snd (load_from_file two_files (bs "d/a.n"))) by (rewrite F; reflexivity). rewrite X. reflexivity.
    + exists file_b. rewrite <- P. split; [|split; [reflexivity|now right]].
      assert (X : s = snd (load_from_file two_files (bs "d/b.n"))) by (rewrite F; reflexivity). rewrite X. reflexivity.
Qed.
Example C90_ex :
  Forall (fun s => so_data s <> None) two_m /\
  (forall s text file ts name, In s two_m \/ (is_file two_files s /\ In (so_path s) two_paths) -> so_data s = Some text ->
     lex file text = Ok ts -> import_of ts name -> In (imported_path s name) two_paths) /\
  exists is m, parse_sources (List.length two_m + List.length two_paths) two_files two_m 0 [] [] = Ok (is, m) /\
    map so_path m = two_paths /\
    flat_map (fun i => match i with TFunc x _ _ _ _ => [x] | _ => [] end) is = [bs "f"; bs "g"].
Proof.
  split; [constructor; [discriminate|constructor]|]. split.
  - intros s text file ts name KN D L IO. destruct (two_known s KN) as (t0 & D0 & B & T). rewrite D0 in D. injection D as <-.
    apply import_of_dec in IO. unfold imported_path. rewrite B.
    destruct T as [-> | ->]; vm_compute in L; injection L as <-; cbn [In] in IO; repeat (destruct IO as [<-|IO]; [vm_compute; tauto|]); destruct IO.
  - eexists _, _. split; [vm_compute; reflexivity|]. split; reflexivity.
Qed.

(** ** C91 (finding): a file that imports itself through "./" is compiled forever

    The check that a file is already loaded compares the spelling of paths, and
    an import is looked up next to the importing file by putting the directory in
    front.  On a file system where "./" in a path makes no difference, the file
    is found under a new spelling every time: whatever the number of sources
    allowed, the front end is not done. *)
Fixpoint undot (p : bytes) : bytes :=
  match p with
  | 46 :: (47 :: r) => undot r
  | c :: r => c :: undot r
  | [] => []
  end.
Definition self_text : bytes := bs "import ""./f""
".
Definition dot_files (p : bytes) : option bytes :=
  if list_eq_dec Z.eq_dec (undot p) (bs "d/f") then Some self_text else None.
Fixpoint dots (n : nat) : bytes := match n with O => [] | S n => 46 :: 47 :: dots n end.
Definition dot_path (n : nat) : bytes := bs "d/" ++ dots n ++ bs "f".
Definition dot_source (n : nat) : source_t := Source (dot_path n) (Some self_text) (gen_lines self_text).

Lemma undot_dots n r : undot (dots n ++ r) = undot r.
Proof. induction n as [|n IH]; [reflexivity|]. cbn [dots app undot]. exact IH. Qed.
Lemma dot_files_path n : dot_files (dot_path n) = Some self_text.
Proof.
  unfold dot_files, dot_path. change (undot (bs "d/" ++ dots n ++ bs "f")) with (100 :: undot (47 :: dots n ++ bs "f")).
  replace (undot (47 :: dots n ++ bs "f")) with (47 :: undot (dots n ++ bs "f")) by reflexivity.
  rewrite undot_dots. reflexivity.
Qed.
Lemma dots_snoc n : dots n ++ [46; 47] = dots (S n).
Proof. induction n as [|n IH]; [reflexivity|]. cbn [dots app]. f_equal. f_equal. exact IH. Qed.
Lemma imported_dot n : imported_path (dot_source n) (bs "./f") = dot_path (S n).
Proof.
  destruct n as [|n]; [reflexivity|].
  assert (E : dot_path (S n) = (bs "d/" ++ dots n ++ [46]) ++ 47 :: bs "f").
  { unfold dot_path. rewrite <- dots_snoc. rewrite <- !app_assoc. reflexivity. }
  rewrite (C16_import_path (dot_source (S n)) (bs "d/" ++ dots n ++ [46]) 47 (bs "f") (bs "./f")); [|now left| | |exact E].
  - unfold dot_path. rewrite <- (dots_snoc (S n)), <- (dots_snoc n). rewrite <- !app_assoc. reflexivity.
  - vm_compute. intuition discriminate.
  - vm_compute. intuition discriminate.
Qed.
Lemma dots_cmp i : forall j, (i < j)%nat -> path_cmp (dots i ++ bs "f") (dots j ++ bs "f") = false.
Proof.
  induction i as [|i IH]; intros [|j] L; try lia; [reflexivity|]. cbn [dots app path_cmp]. apply IH. lia.
Qed.
Lemma dot_load n : sm_load dot_files (map dot_source (seq 0 (S n))) (dot_path (S n)) = (true, map dot_source (seq 0 (S (S n)))).
Proof.
  unfold sm_load. replace (existsb _ _) with false.
  - unfold load_from_file. rewrite dot_files_path. rewrite (seq_S (S n)), map_app. reflexivity.
  - symmetry. apply not_true_iff_false. intros H. apply existsb_exists in H. destruct H as (s & I0 & C).
    apply in_map_iff in I0. destruct I0 as (i & <- & I0). apply in_seq in I0.
    change (path_cmp (so_path (dot_source i)) (dot_path (S n))) with (path_cmp (dots i ++ bs "f") (dots (S n) ++ bs "f")) in C.
    rewrite dots_cmp in C by lia. discriminate.
Qed.
Lemma parse_import_only fs src m left x l1 l2 l3 l4 m1 : sm_load fs m (imported_path src x) = (true, m1) ->
  exists st, parse fs src m left [Token TOK_IMPORT l1; Token (TOK_STRING x) l2; Token TOK_EOL l3; Token TOK_EOF l4] =
    Ok ([TImport x l2], m1, st).
Proof.
  intros L. unfold parse. change (parse_fuel _) with 32%nat. rewrite parse_items_S. unfold found, ptype, pop. cbn [p_toks bind kind_of tk kind_eqb].
  unfold parse_import, popk, found, ptype, pop. cbn [p_toks bind kind_of tk kind_eqb t_str]. rewrite L. cbn [bind tk_line].
  rewrite parse_items_S. unfold found, ptype, pop. cbn [p_toks bind kind_of tk kind_eqb].
  rewrite parse_items_S. unfold found, ptype, pop. cbn [p_toks bind kind_of tk kind_eqb]. eexists. reflexivity.
Qed.
Lemma dot_loop k : forall n left acc,
  parse_sources k dot_files (map dot_source (seq 0 (S n))) (Z.of_nat n) left acc = Stuck SDiverge.
Proof.
  induction k as [|k IH]; intros n left acc; cbn [parse_sources].
  - assert (Z0 : znth (map dot_source (seq 0 (S n))) (Z.of_nat n) = Some (dot_source n)).
    { rewrite znth_nth_error, Nat2Z.id by lia. rewrite (map_nth_error dot_source n (seq 0 (S n)) (d := n)); [reflexivity|].
      rewrite (nth_error_nth' _ 0%nat) by (rewrite seq_length; lia). now rewrite seq_nth by lia. }
    rewrite Z0. reflexivity.
  - assert (Z0 : znth (map dot_source (seq 0 (S n))) (Z.of_nat n) = Some (dot_source n)).
    { rewrite znth_nth_error, Nat2Z.id by lia. rewrite (map_nth_error dot_source n (seq 0 (S n)) (d := n)); [reflexivity|].
      rewrite (nth_error_nth' _ 0%nat) by (rewrite seq_length; lia). now rewrite seq_nth by lia. }
    rewrite Z0. cbn [dot_source so_data].
    assert (L : forall file, exists l1 l2 l3 l4, lex file self_text =
      Ok [Token TOK_IMPORT l1; Token (TOK_STRING (bs "./f")) l2; Token TOK_EOL l3; Token TOK_EOF l4]) by (intros file; eexists _, _, _, _; reflexivity).
    destruct (L (Z.of_nat n)) as (l1 & l2 & l3 & l4 & ->). cbn [bind].
    destruct (parse_import_only dot_files (dot_source n) (map dot_source (seq 0 (S n))) left (bs "./f") l1 l2 l3 l4 (map dot_source (seq 0 (S (S n))))) as [st E].
    { rewrite imported_dot. apply dot_load. }
    change (Source (dot_path n) (Some self_text) (gen_lines self_text)) with (dot_source n). rewrite E. cbn [bind].
    replace (Z.of_nat n + 1) with (Z.of_nat (S n)) by lia. apply IH.
Qed.
Theorem C91_endless_self_import : forall fuel addr on regs,
  sm_load dot_files [] (bs "d/f") = (true, [dot_source 0]) /\
  build fuel dot_files addr on regs [dot_source 0] = Stuck SDiverge.
Proof.
  intros fuel addr on regs. split; [reflexivity|]. unfold build.
  pose proof (dot_loop fuel 0 [] []) as H. change (map dot_source (seq 0 1)) with [dot_source 0] in H. change (Z.of_nat 0) with 0 in H.
  rewrite H. reflexivity.
Qed.

Print Assumptions C89_each_file_once.
Print Assumptions C90_imports_end.
Print Assumptions C90_no_endless_import.
Print Assumptions C90_build_answers.
Print Assumptions C91_endless_self_import.
