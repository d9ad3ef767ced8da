(** Properties of the line table: C97 and C98.  The vocabulary is that of
    LineSpec.v and LineOrigin.v. *)
From Coq Require Import ZArith List Bool Lia String ZifyBool.
From Verif Require Import Base BaseFacts F32 Instr InstrSpec Program VM AbsHeap VmSpec Source Lexer Ast Parser Sema SemaSpec SemaFacts Optimize Codegen
  Build SrcSem CgSpec CgCode CgLayout CgSlots CgSim CgLink CgFlow CgRun CgWell ParseFine LineSpec LineFacts PropertiesCodegen Events LineOrigin SrcLines.
Import ListNotations.
Open Scope list_scope.
Open Scope Z_scope.

(** ** C97: the line of every instruction *)
Section Lines.
  Variables (items : list ritem) (n : nat) (p : program_t).
  Hypothesis Gen : generate items n = Ok p.
  Hypothesis Pok : program_ok items n.
  Hypothesis Fit : fits p.
  Let sx := sys_index p.
  Let fa := fun f => address p (fd_name f).
  Let lay := g_layout items n sx.
  Let sizes := g_sizes items n.

  Lemma self_bound : bound p p.
  Proof. constructor; reflexivity. Qed.
  Lemma lay_wf : forall q, In q lay -> Forall (fun x => ins_wf (linked_ins fa x)) (g_code_of items n sx q).
  Proof. intros q I. exact (proj2 (place_code_at items n p p Gen Pok Fit self_bound q I)). Qed.
  Lemma lines_are : p_lines p = marks 0 (flat_map (item_notes sizes) (g_items items n)).
  Proof. exact (generate_lines items n p Gen). Qed.

  Lemma place_listed q : In q lay ->
    exists lend, In (RFunc (pl_f q) (pl_args q) (pl_body q) lend) (g_items items n) /\
      listed p (pl_base q) (item_notes sizes (RFunc (pl_f q) (pl_args q) (pl_body q) lend)) (pl_base q + clen (g_code_of items n sx q)).
  Proof.
    intros I. destruct (layout_notes _ _ _ _ fa q _ 0 0 I lay_wf) as (lend & pre & post & A & B & C).
    exists lend. split; [exact A|]. pose proof (place_code_at items n p p Gen Pok Fit self_bound q I) as K.
    set (l := item_notes sizes (RFunc (pl_f q) (pl_args q) (pl_body q) lend)) in *.
    assert (Sp : clen (g_code_of items n sx q) = span l) by (apply (clen_span fa); [exact (proj2 K)|apply ops_func]).
    apply (listed_code p fa (q_len items n p p Gen Pok self_bound)); [exact K|apply ops_func|].
    intros a o t b E. unfold Program.get_line. rewrite lines_are.
    change (flat_map (item_notes sizes) (g_items items n)) with (flat_map (item_notes (g_sizes items n)) (g_items items n)).
    rewrite B. fold sizes. fold l. rewrite E.
    replace (to_i32 (pl_base q + span a)) with (0 + span (pre ++ a)).
    - rewrite <- app_assoc, <- app_comm_cons, app_assoc. rewrite lt_find_marks. reflexivity.
    - rewrite span_app. rewrite C, Z.add_0_l. symmetry. rewrite E, span_app in Sp. cbn [span] in Sp.
      pose proof (ins_len_pos o). pose proof (span_nonneg b). pose proof (span_nonneg a). pose proof (span_nonneg pre).
      destruct K as [(x & y & Ec & Lx) _]. pose proof (fi_code _ Fit) as Fc. rewrite Ec, !zlen_app, zlen_code_of in Fc.
      pose proof (zlen_nonneg y). fold (g_code_of items n sx q) in Sp. unfold sx in Sp. rewrite Sp in Fc.
      apply to_i32_id. unfold i32_max in Fc. unfold in_i32, i32_min, i32_max. lia.
  Qed.

  Lemma place_function q : In q lay -> exists g, In g (p_functions p) /\ f_name g = fd_name (pl_f q) /\
    f_start g = pl_base q /\ f_end g = pl_base q + clen (g_code_of items n sx q).
  Proof.
    intros I. eexists. split; [|split; [|split]].
    - rewrite (gd_funs _ _ _ _ (made items n p p Gen Pok self_bound)). apply in_map. exact I.
    - reflexivity.
    - reflexivity.
    - reflexivity.
  Qed.
End Lines.

(** Every function of the source is, from its first instruction to its last, the
    instructions of [func_notes] in that order, and the table answers the line
    noted there for each of them. *)
Theorem C97_function_lines : forall items n p, generate items n = Ok p -> program_ok items n -> fits p ->
  forall f args body lend, In (RFunc f args body lend) items ->
  exists g, In g (p_functions p) /\ f_name g = fd_name f /\
    listed p (f_start g) (func_notes f body lend) (f_end g).
Proof.
  intros items n p G P F f args body lend I.
  assert (N : NoDup (flat_map item_names (g_items items n))) by (apply names_all; exact P).
  assert (Iall : In (RFunc f args body lend) (g_items items n)) by (unfold g_items, add_init; apply in_app_iff; left; exact I).
  destruct (layout_in (g_slots items n) (g_sizes items n) (sys_index p) (g_ng items n) _ _ _ _ _ Iall 0 0) as (q & Q & E1 & E2 & E3).
  destruct (place_listed items n p G P F q Q) as (lend' & L1 & L2).
  destruct (place_function items n p G P q Q) as (g & G1 & G2 & G3 & G4).
  exists g. split; [exact G1|]. rewrite E1 in G2. split; [exact G2|]. rewrite G3, G4. rewrite E1, E2, E3 in *.
  assert (lend' = lend).
  { clear -N Iall L1. induction (g_items items n) as [|i l IH]; [contradiction|].
    assert (K : forall g a b e, In (RFunc g a b e) l -> In (fd_name g) (flat_map item_names l)).
    { intros g a b e H. apply in_flat_map. eexists. split; [exact H|left; reflexivity]. }
    destruct L1 as [->|L1], Iall as [H|Iall].
    - now injection H.
    - cbn [flat_map item_names app] in N. inversion N; subst. exfalso. eauto.
    - subst i. cbn [flat_map item_names app] in N. inversion N; subst. exfalso. eauto.
    - apply IH; auto. cbn [flat_map] in N. clear -N. induction (item_names i) as [|x t IH]; [exact N|]. inversion N; auto. }
  subst lend'.
  assert (Ni : is_init f = false).
  { apply not_true_iff_false. intros H. unfold is_init in H. apply bytes_eqb_eq in H.
    pose proof (po_names _ _ P) as Nn. inversion Nn as [|? ? A _]; subst. apply A. rewrite <- H.
    unfold function_names. apply in_flat_map. eexists. split; [exact I|left; reflexivity]. }
  assert (Room : (0 <? assoc (g_sizes items n) (fd_id f)) = existsb takes_slot (decls_block body)).
  { rewrite decls_block_local. unfold g_sizes, offsets. eapply off_items_room; [apply nodes_all; exact P|exact Iall]. }
  unfold item_notes in L2. rewrite Ni, Room in L2. exact L2.
Qed.

(** So is the function that sets the globals. *)
Theorem C97_init_lines : forall items n p, generate items n = Ok p -> program_ok items n -> fits p ->
  exists g, In g (p_functions p) /\ f_name g = init_name /\
    listed p (f_start g) (init_notes items) (f_end g).
Proof.
  intros items n p G P F. destruct (init_place items n p) as (q & Q & E1 & E2 & E3).
  destruct (place_listed items n p G P F q Q) as (lend' & L1 & L2).
  destruct (place_function items n p G P q Q) as (g & G1 & G2 & G3 & G4).
  exists g. split; [exact G1|]. rewrite E1 in G2. split; [exact G2|]. rewrite G3, G4. rewrite E1, E2, E3 in *.
  change (item_notes (g_sizes items n) (RFunc (FDecl n init_name None false false 0) [] (flat_map init_assign items) lend')) with
    ([(INS_GLOBALS, None)] ++ flat_map stmt_notes (flat_map init_assign items) ++ [(INS_NEW_INT, None); (INS_RET, @None line_t)]) in L2.
  unfold init_notes. replace (flat_map stmt_notes (flat_map init_assign items)) with
    (flat_map (fun i => match i with
                     | RGlobal d (Some e) =>
                         if vd_const d then [] else expr_notes e ++ [(writes d, Some (vd_line d))]
                     | _ => []
                     end) items) in L2; [exact L2|].
  clear. induction items as [|i items IH]; [reflexivity|]. cbn [flat_map]. rewrite flat_map_app, <- IH. f_equal.
  destruct i as [|d [e|]|]; try reflexivity. cbn [init_assign]. destruct (vd_const d); [reflexivity|]. cbn. now rewrite app_nil_r.
Qed.

(** And the table has no other entries. *)
Theorem C97_nothing_else : forall items n p, generate items n = Ok p -> program_ok items n -> fits p ->
  forall a l, In (a, l) (p_lines p) ->
  exists g, In g (p_functions p) /\ f_start g <= a < f_end g /\ starts p (f_start g) a.
Proof.
  intros items n p G P F a l I. rewrite (lines_are items n p G) in I.
  destruct (layout_marks _ _ _ _ _ _ _ _ 0 0 (lay_wf items n p G P F) I) as (q & lend & Q & M).
  destruct (place_listed items n p G P F q Q) as (lend' & _ & L).
  destruct (place_function items n p G P q Q) as (g & G1 & _ & G3 & G4).
  exists g. split; [exact G1|]. rewrite G3, G4.
  assert (K : forall x, In x (map fst (marks (pl_base q) (item_notes (g_sizes items n) (RFunc (pl_f q) (pl_args q) (pl_body q) lend)))) ->
              exists y, In (x, y) (marks (pl_base q) (item_notes (g_sizes items n) (RFunc (pl_f q) (pl_args q) (pl_body q) lend')))).
  { clear. intros x H. cbn [item_notes] in *. destruct (is_init (pl_f q)).
    - apply in_map_iff in H. destruct H as ([a y] & <- & H). eauto.
    - rewrite app_assoc, marks_app in *. rewrite map_app in H. apply in_app_iff in H. destruct H as [H|H].
      + apply in_map_iff in H. destruct H as ([a y] & <- & H). exists y. apply in_app_iff. auto.
      + destruct (ends_in_return (pl_body q)); [contradiction|]. cbn [marks app map fst In] in H.
        destruct H as [<-|[<-|[]]]; eexists; apply in_app_iff; right; cbn [marks app In]; auto. }
  destruct (K a) as (y & Y). { apply in_map_iff. exists (a, l). auto. }
  destruct (marks_starts p y _ _ _ L a Y _ (starts_here _ _)) as [S R]. auto.
Qed.

(** The hypotheses hold of a text with a global, a local, both branches of an
    [if] and a function that does not end in a return. *)
Lemma tree_ok fuel fs m regs src m' x : parse_sources fuel fs m 0 [] [] = Ok (src, m') ->
  run_sema Z.of_nat (map (fun x => CSys (fst x) (snd x)) regs ++ map CItem src) = Ok x -> program_ok (fst x) (snd x).
Proof.
  intros P R. destruct x as [items n]. eapply run_sema_ok; [|exact R]. apply Forall_app. split.
  - apply Forall_forall. intros c I. apply in_map_iff in I. destruct I as (x & <- & _). exact Logic.I.
  - apply Forall_forall. intros c I. apply in_map_iff in I. destruct I as (x & <- & I).
    apply (proj1 (Forall_forall _ _) (parse_sources_fine _ _ _ _ _ _ _ _ (Forall_nil _) (Forall_nil _) P) _ I).
Qed.
Definition line_text : string := "var g = 2
function f(a)
  var s = g
  if (a)
    s = print(a + 1)
  else
    s = 0
  end
end
"%string.
Definition line_regs : list (bytes * Z) := [(bs "print", 1)].
Definition line_m : list source_t := snd (sm_load_from_string [] (bs line_text)).
Definition line_src : list item := match parse_sources 5 (fun _ => None) line_m 0 [] [] with Ok (src, _) => src | _ => [] end.
Definition line_tree : list ritem * nat :=
  match run_sema Z.of_nat (map (fun x => CSys (fst x) (snd x)) line_regs ++ map CItem line_src) with Ok x => x | _ => ([], 0%nat) end.
Definition line_prog : program_t := match generate (fst line_tree) (snd line_tree) with Ok p => p | _ => Prog [] [] [] [] [] [] end.
Example C97_ex :
  generate (fst line_tree) (snd line_tree) = Ok line_prog /\ program_ok (fst line_tree) (snd line_tree) /\ fits line_prog /\
  (exists f args body lend, In (RFunc f args body lend) (fst line_tree) /\
     func_notes f body lend =
       [(INS_LOCALS, Some (Line 0 2));
        (INS_GETG, Some (Line 0 3)); (INS_SETV, Some (Line 0 3));
        (INS_GETV, Some (Line 0 4)); (INS_FJMP, Some (Line 0 4));
        (INS_GETV, Some (Line 0 5)); (INS_NEW_INT, Some (Line 0 5)); (INS_ADD, Some (Line 0 5));
        (INS_SCALL, Some (Line 0 5)); (INS_SETV, Some (Line 0 5));
        (INS_JMP, None);
        (INS_NEW_INT, Some (Line 0 7)); (INS_SETV, Some (Line 0 7));
        (INS_NEW_INT, Some (Line 0 9)); (INS_RET, Some (Line 0 9))]) /\
  init_notes (fst line_tree) =
    [(INS_GLOBALS, None); (INS_NEW_INT, Some (Line 0 1)); (INS_SETG, Some (Line 0 1)); (INS_NEW_INT, None); (INS_RET, None)] /\
  List.length (p_lines line_prog) = 16%nat.
Proof.
  split; [vm_compute; reflexivity|].
  split.
  { assert (P : parse_sources 5 (fun _ => None) line_m 0 [] [] = Ok (line_src, line_m)) by (vm_compute; reflexivity).
    apply (tree_ok _ _ _ line_regs _ _ _ P). vm_compute. reflexivity. }
  split; [apply fitsb_ok; vm_compute; reflexivity|].
  split.
  { assert (H : nth_error (fst line_tree) 2 = Some (nth 2 (fst line_tree) (RSys (FDecl 0 [] None false false 0)))) by (vm_compute; reflexivity).
    apply nth_error_In in H. revert H. remember (nth 2 (fst line_tree) _) as x eqn:E. vm_compute in E. subst x. intros H.
    eexists _, _, _, _. split; [exact H|]. vm_compute. reflexivity. }
  split; vm_compute; reflexivity.
Qed.

(** ** C98: the lines are lines of the sources *)

(** A program built from texts and files the host added, and from what these
    import: every line in its table is the line of a word of one of the sources
    ([m'], the sources after the build), and asking the sources for its text
    answers the line around that word. *)
Theorem C98_lines_are_source_lines : forall fuel fs addr on regs m src m' p, loaded m ->
  parse_sources fuel fs m 0 [] [] = Ok (src, m') -> build fuel fs addr on regs m = Ok (Some p) ->
  (forall s data, In s m' -> so_data s = Some data -> zlen data < 2 ^ 31) ->
  forall a l, In (a, l) (p_lines p) -> line_of_word m' l.
Proof.
  intros fuel fs addr on regs m src m' p Lm P B Sz a l I.
  destruct (build_parts _ _ _ _ _ _ _ B) as (src' & m2 & items & n & items' & n' & E1 & E2 & _ & E3 & _ & E4).
  rewrite P in E1. inversion E1; subst src' m2. clear E1.
  destruct (parse_sources_lines fuel fs m 0 [] [] src m' (Z.le_refl 0) (loaded_text_ok m Lm) (Forall_nil _) (Forall_nil _) P) as [T Li].
  apply token_line_word; [exact T| |].
  { apply Forall_forall. intros s Is d D. exact (Sz s d Is D). }
  assert (C : Forall (child_l (token_line m')) (map (fun x => CSys (fst x) (snd x)) regs ++ map CItem src)).
  { apply Forall_app. split; apply Forall_forall; intros c Ic; apply in_map_iff in Ic; destruct Ic as (x & <- & Ic); [exact Logic.I|].
    cbn [child_l]. rewrite Forall_forall in Li. exact (Li x Ic). }
  pose proof (run_sema_l _ _ _ _ _ C E2) as S1. pose proof (run_optimize_l _ _ _ _ _ _ S1 E3) as S2.
  pose proof (generate_l _ _ _ _ S2 E4) as S3. rewrite Forall_forall in S3. exact (S3 _ I).
Qed.

(** So whatever address a host asks about, it gets "no line" or such a line. *)
Theorem C98_every_answer : forall fuel fs addr on regs m src m' p, loaded m ->
  parse_sources fuel fs m 0 [] [] = Ok (src, m') -> build fuel fs addr on regs m = Ok (Some p) ->
  (forall s data, In s m' -> so_data s = Some data -> zlen data < 2 ^ 31) ->
  forall pc, Program.get_line p pc = no_line \/ line_of_word m' (Program.get_line p pc).
Proof.
  intros fuel fs addr on regs m src m' p Lm P B Sz pc. unfold Program.get_line. destruct (lt_find (p_lines p) (to_i32 pc)) as [l|] eqn:E; [|now left].
  right. apply (C98_lines_are_source_lines fuel fs addr on regs m src m' p Lm P B Sz (to_i32 pc)).
  clear -E. induction (p_lines p) as [|[k v] t IH]; cbn [lt_find] in E; [discriminate|].
  destruct (to_i32 pc =? k) eqn:K; [left; inversion E; subst; f_equal; lia|right; auto].
Qed.

(** A text that imports another: the table names lines of both. *)
Definition two_text : string := "import ""b""

function main()
  return help(1)
end
"%string.
Definition two_help : string := "# helper
function help(x)
  return x + 1
end
"%string.
Definition two_fs (path : bytes) : option bytes := if bytes_eqb path (bs "/b") then Some (bs two_help) else None.
Definition two_m : list source_t := snd (sm_load_from_string [] (bs two_text)).
Definition two_m' : list source_t := match parse_sources 5 two_fs two_m 0 [] [] with Ok (_, m') => m' | _ => [] end.
Definition two_prog : program_t := match build 5 two_fs Z.of_nat true [] two_m with Ok (Some p) => p | _ => Prog [] [] [] [] [] [] end.
Example C98_ex : loaded two_m /\
  (exists src, parse_sources 5 two_fs two_m 0 [] [] = Ok (src, two_m')) /\
  build 5 two_fs Z.of_nat true [] two_m = Ok (Some two_prog) /\
  (forall s data, In s two_m' -> so_data s = Some data -> zlen data < 2 ^ 31) /\
  map (fun x => sm_line two_m' (snd x)) (p_lines two_prog) =
    map (fun x => Ok (bs x)) ["  return help(1)
"; "  return help(1)
"; "  return help(1)
"; "  return x + 1
"; "  return x + 1
"; "  return x + 1
"; "  return x + 1
"]%string.
Proof.
  split; [apply loaded_text; constructor|].
  split; [eexists; vm_compute; reflexivity|].
  split; [vm_compute; reflexivity|].
  split; [|vm_compute; reflexivity].
  assert (H : forallb (fun s => match so_data s with Some d => zlen d <? 2 ^ 31 | None => true end) two_m' = true) by (vm_compute; reflexivity).
  rewrite forallb_forall in H. intros s data I D. specialize (H s I). rewrite D in H. lia.
Qed.

Print Assumptions C97_function_lines.
Print Assumptions C97_init_lines.
Print Assumptions C97_nothing_else.
Print Assumptions C98_lines_are_source_lines.
Print Assumptions C98_every_answer.
