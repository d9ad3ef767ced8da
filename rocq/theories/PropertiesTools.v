(** Properties of the compiler's tools: listing, tree dump, command line. *)
From Coq Require Import ZArith List Bool Lia String ZifyBool.
From Verif Require Import Base BaseFacts F32 Instr InstrSpec InstrProofs Program Source Lexer Ast Parser Sema Optimize
  Codegen Build VM VmSpec Tools ToolSpec CgSpec CgLink CompileSpec CompileFacts CompileSafe BuildSpec ParseFine ListFacts TreeFacts PropertiesCodegen PropertiesBuild.
Import ListNotations.
Open Scope Z_scope.

(** ** C101: the listing of a compiled program is complete *)
Theorem C101_listing : forall fuel fs addr on regs m p,
  build fuel fs addr on regs m = Ok (Some p) -> fits p ->
  exists t, list_program p = Ok t /\ sections p (p_functions p) 0 (-1) t.
Proof.
  intros fuel fs addr on regs m p B Fi. destruct (build_parts _ _ _ _ _ _ _ B) as (src & m' & items & n & items' & n' & _ & _ & _ & _ & P & G).
  exact (generated_listing items' n' p G P Fi).
Qed.
Print Assumptions C101_listing.

Definition tool_text : bytes := bs "
var total = 3
function add(x)
  if (x > total)
    return x
  end
end
function main()
  total = add(1)
end
"%string.
Definition tool_sources : list source_t := snd (sm_load_from_string [] tool_text).
Definition tool_build : res (option program_t) := build 5 (fun _ => None) Z.of_nat true [] tool_sources.
Definition tool_prog : program_t := match tool_build with Ok (Some p) => p | _ => Prog [] [] [] [] [] [] end.
Definition tool_listing : bytes := bs "# function: add
# line: 4
INS_GETV -1
INS_GETG 0
INS_GT
INS_FJMP 26
# line: 5
INS_GETV -1
INS_RET 1
# line: 7
INS_NEW_INT 0
INS_RET 1

# function: main
"%string.
Example C101_ex : tool_build = Ok (Some tool_prog) /\ fits tool_prog /\ 
  match list_program tool_prog with Ok t => zfirstn (zlen tool_listing) t = tool_listing | _ => False end.
Proof. split; [vm_compute; reflexivity|]. split; [apply fitsb_ok; vm_compute; reflexivity|]. vm_compute. reflexivity. Qed.

(** ** C102: the dump of the tree after a build *)
Lemma build_of_tree fuel fs addr on regs m :
  build fuel fs addr on regs m =
  match build_tree fuel fs addr on regs m with
  | Ok (Some (p, _)) => Ok (Some p)
  | Ok None => Ok None
  | Err e l => Err e l
  | Stuck x => Stuck x
  end.
Proof.
  unfold build, build_tree, compile. destruct m as [|s m]; [reflexivity|]. destruct (parse_sources _ _ _ _ _ _) as [[items m']|? ?|?]; cbn [bind]; try reflexivity.
  destruct (run_sema _ _) as [[r n]|? ?|?]; cbn [bind]; try reflexivity. destruct (run_optimize _ _ _) as [[r1 n1]|? ?|?]; cbn [bind]; try reflexivity.
  destruct (generate r1 n1) as [p|? ?|?]; reflexivity.
Qed.

(** The tree that is left after a build shows as an outline of the program, unless
    it has an array literal or an assignment to a member: their nodes have been
    deleted. *)
Theorem C102_tree_dump : forall fuel fs addr on regs m p tree ff,
  build_tree fuel fs addr on regs m = Ok (Some (p, tree)) ->
  let t := program_tree ff tree in
  let deleted := has_kind "ast_exp_array_init_t" t \/ has_kind "ast_stmt_assign_member_t" t in
  build fuel fs addr on regs m = Ok (Some p) /\
  (~ deleted -> print_tree ff tree = Ok (outline 0 t)) /\
  (deleted -> print_tree ff tree = Stuck SDangling).
Proof.
  intros fuel fs addr on regs m p tree ff B t deleted. split; [rewrite build_of_tree, B; reflexivity|].
  pose proof (tree_shown ff tree) as S. unfold shows in S. fold t in S. pose proof (lost_iff t) as L. fold deleted in L. revert L.
  clearbody deleted. rewrite S. destruct (lost t); intros L; split; intros H; try reflexivity; exfalso.
  - apply H. apply L. reflexivity.
  - apply L in H. discriminate H.
Qed.
Print Assumptions C102_tree_dump.

(** ** C103: what comp -b writes is not a program image *)
Lemma starts_with_ins p x : at_ins p 0 x -> exists l, p_code p = opcode (ins_op x) :: l.
Proof.
  intros (L & _ & _ & b & E & H). assert (B : exists r, b = opcode (ins_op x) :: r).
  { destruct x as [i|i o|i o1 o2]; cbn [emit ins_op] in *; destruct i; cbn in E; inversion E; eauto. }
  destruct B as [r ->]. destruct (p_code p) as [|c l]; [cbn in L; discriminate L|]. exists l. f_equal.
  change (zskipn 0 (c :: l)) with (c :: l) in H. rewrite zlen_cons in H. pose proof (zlen_nonneg r). cbn [zfirstn] in H.
  destruct (zlen r + 1 <=? 0) eqn:E0; [lia|]. injection H as H _. exact H.
Qed.
Lemma opcode_small i : 0 <= opcode i < 67.
Proof. destruct i; vm_compute; split; congruence. Qed.
Lemma not_magic b0 b1 b2 b3 : 0 <= b0 < 67 -> (of_le32 b0 b1 b2 b3 =? to_i32 magic) = false.
Proof.
  intros R. apply Z.eqb_neq. intros E. unfold of_le32 in E. apply (f_equal (fun z => z mod 256)) in E.
  assert (M : forall z, to_i32 z mod 256 = z mod 256).
  { intros z. unfold to_i32, to_u32. assert (W : z mod 4294967296 mod 256 = z mod 256) by (rewrite (Z.mod_eq z 4294967296) by lia; replace (z - 4294967296 * (z / 4294967296)) with (z + (-16777216 * (z / 4294967296)) * 256) by ring; apply Z.mod_add; lia).
    destruct (_ <? _); [exact W|]. rewrite <- W. replace (z mod 4294967296 - 4294967296) with (z mod 4294967296 + -16777216 * 256) by ring. apply Z.mod_add. lia. }
  rewrite !M in E. replace (b0 + 256 * b1 + 65536 * b2 + 16777216 * b3) with (b0 + (b1 + 256 * b2 + 65536 * b3) * 256) in E by ring.
  rewrite Z.mod_add, Z.mod_small in E by lia. change (magic mod 256) with 67 in E. lia.
Qed.
Theorem C103_binary_is_no_image : forall fuel fs addr on regs m p old,
  build fuel fs addr on regs m = Ok (Some p) -> fits p ->
  serial_load old (p_code p) = Ok (false, Some p_empty).
Proof.
  intros fuel fs addr on regs m p old B Fi. destruct (C101_listing _ _ _ _ _ _ _ B Fi) as (t & _ & S).
  unfold serial_load, c_int, fread. inversion S as [s' E1 E2|f fsl s' t1 s'' t2 L Bo R E1 E2 E3 E4].
  - rewrite E2. reflexivity.
  - inversion Bo as [s1 E5 E6|a x s1 t3 s2 A LE Bo2]; [lia|]. rewrite E2 in A. apply starts_with_ins in A. destruct A as [l A].
    destruct (4 <=? zlen (p_code p)) eqn:EL; [|reflexivity]. rewrite A. change (zfirstn 4 (opcode (ins_op x) :: l)) with (opcode (ins_op x) :: zfirstn 3 l).
    destruct l as [|b1 l]; [reflexivity|]. destruct l as [|b2 l]; [reflexivity|]. destruct l as [|b3 l]; [reflexivity|].
    replace (zfirstn 3 (b1 :: b2 :: b3 :: l)) with [b1; b2; b3] by (destruct l; reflexivity). cbn [bind]. rewrite not_magic by apply opcode_small. reflexivity.
Qed.
Print Assumptions C103_binary_is_no_image.

(** ** C104: the command line of the compiler *)
Section CommandLine.
  Variable fs : bytes -> option bytes.
  Variable can : bytes -> bool.
  Variable a1 : bytes.

  Definition too_long : Prop := 1024 <= zlen a1 + 4.
  Definition opened (on : bool) (ext : string) (before : option bytes) : option bytes :=
    if on then (if can (a1 ++ bs ext) then Some (a1 ++ bs ext) else None) else before.

  Lemma fd_open_cases ext : zlen (bs ext) = 4 ->
    fd_open can a1 ext = Stuck SOob /\ too_long \/ fd_open can a1 ext = Ok (opened true ext None) /\ ~ too_long.
  Proof.
    intros L. unfold fd_open, too_long. rewrite zlen_app, L. destruct (zlen a1 + 4 <? 1024) eqn:E; [right|left]; (split; [reflexivity|lia]).
  Qed.

  Lemma args_cases : forall args q,
    match comp_args fs can a1 args q with
    | Ok (Some q') =>
        load_all fs (q_sources q) (ToolSpec.operands args) = Some (q_sources q') /\
        q_optimize q' = q_optimize q && negb (given 110 args) /\
        q_ast q' = opened (given 97 args) ".ast" (q_ast q) /\
        q_dis q' = opened (given 100 args) ".dis" (q_dis q) /\
        q_bin q' = opened (given 98 args) ".bin" (q_bin q)
    | Ok None => load_all fs (q_sources q) (ToolSpec.operands args) = None
    | Err _ _ => False
    | Stuck x => x = SOob /\ too_long /\ (given 97 args || given 100 args || given 98 args) = true
    end.
  Proof.
    induction args as [|arg rest IH]; intros q.
    { cbn. destruct q as [m o a d b]. cbn. rewrite andb_true_r. repeat split. }
    assert (Plain : is_option arg = false ->
      comp_args fs can a1 (arg :: rest) q =
        (let (ok, m) := sm_load fs (q_sources q) arg in
         if ok then comp_args fs can a1 rest (Request m (q_optimize q) (q_ast q) (q_dis q) (q_bin q)) else Ok None) /\
      forall c, given c (arg :: rest) = given c rest).
    { intros N. destruct arg as [|c opt]; [split; reflexivity|]. cbn [is_option] in N.
      split; [|intros c'; cbn [given existsb]]; (destruct c as [|c|c]; try reflexivity; do 6 (try destruct c as [c|c|]); try reflexivity; discriminate N). }
    destruct (is_option arg) eqn:EO.
    2: { destruct (Plain eq_refl) as [-> G]. unfold ToolSpec.operands. cbn [filter]. rewrite EO. cbn [negb load_all]. fold (ToolSpec.operands rest).
         destruct (sm_load fs (q_sources q) arg) as [[|] m]; [|reflexivity]. rewrite !G. exact (IH (Request m (q_optimize q) (q_ast q) (q_dis q) (q_bin q))). }
    assert (Op : ToolSpec.operands (arg :: rest) = ToolSpec.operands rest) by (unfold ToolSpec.operands; cbn [filter]; rewrite EO; reflexivity).
    rewrite Op.
    assert (D : exists opt, arg = 45 :: opt).
    { destruct arg as [|c opt]; [discriminate|]. cbn [is_option] in EO. exists opt. f_equal. destruct c as [|c|c]; try discriminate; do 6 (try destruct c as [c|c|]); try discriminate. reflexivity. }
    destruct D as [opt ->].
    assert (G : forall c, given c ((45 :: opt) :: rest) = (match opt with c' :: _ => c' =? c | [] => false end) || given c rest) by reflexivity.
    rewrite !G. cbn [comp_args].
    assert (Same : forall q', q_sources q' = q_sources q -> 
      (q_optimize q' = q_optimize q && negb (match opt with c' :: _ => c' =? 110 | [] => false end)) ->
      (q_ast q' = opened (match opt with c' :: _ => c' =? 97 | [] => false end) ".ast" (q_ast q)) ->
      (q_dis q' = opened (match opt with c' :: _ => c' =? 100 | [] => false end) ".dis" (q_dis q)) ->
      (q_bin q' = opened (match opt with c' :: _ => c' =? 98 | [] => false end) ".bin" (q_bin q)) ->
      match comp_args fs can a1 rest q' with
      | Ok (Some q') =>
        load_all fs (q_sources q) (ToolSpec.operands rest) = Some (q_sources q') /\
        q_optimize q' = q_optimize q && negb ((match opt with c' :: _ => c' =? 110 | [] => false end) || given 110 rest) /\
        q_ast q' = opened ((match opt with c' :: _ => c' =? 97 | [] => false end) || given 97 rest) ".ast" (q_ast q) /\
        q_dis q' = opened ((match opt with c' :: _ => c' =? 100 | [] => false end) || given 100 rest) ".dis" (q_dis q) /\
        q_bin q' = opened ((match opt with c' :: _ => c' =? 98 | [] => false end) || given 98 rest) ".bin" (q_bin q)
      | Ok None => load_all fs (q_sources q) (ToolSpec.operands rest) = None
      | Err _ _ => False
      | Stuck x => x = SOob /\ too_long /\ (((match opt with c' :: _ => c' =? 97 | [] => false end) || given 97 rest) || ((match opt with c' :: _ => c' =? 100 | [] => false end) || given 100 rest)
          || ((match opt with c' :: _ => c' =? 98 | [] => false end) || given 98 rest)) = true
      end).
    { intros q' E1 E2 E3 E4 E5. specialize (IH q'). rewrite E1, E2, E3, E4, E5 in IH.
      destruct (comp_args fs can a1 rest q') as [[q2|]|? ?|x]; [|exact IH|exact IH|].
      - destruct IH as (H1 & H2 & H3 & H4 & H5). split; [exact H1|].
        assert (Two : forall b1 b2 ext o, opened b2 ext (opened b1 ext o) = opened (b1 || b2) ext o) by (intros [|] [|] ext o; reflexivity).
        rewrite H2, H3, H4, H5, !Two, negb_orb, andb_assoc. repeat split.
      - destruct IH as (H1 & H2 & H3). split; [exact H1|]. split; [exact H2|]. lia. }
    assert (Rest : forall q', (match opt with c :: _ => c <> 97 /\ c <> 100 /\ c <> 98 /\ c <> 110 | [] => True end) -> q' = q ->
       match opt with c :: _ => (c =? 97) = false /\ (c =? 100) = false /\ (c =? 98) = false /\ (c =? 110) = false | [] => True end).
    { intros q' H _. destruct opt as [|c opt]; [exact Logic.I|]. lia. }
    destruct opt as [|c opt].
    { apply Same; try reflexivity. cbn. rewrite andb_true_r. reflexivity. }
    destruct (Z.eq_dec c 97) as [->|N1].
    { destruct (fd_open_cases ".ast" eq_refl) as [[E L]|[E L]]; rewrite E; cbn [bind].
      - repeat split; [exact L].
      - apply Same; try reflexivity. cbn. rewrite andb_true_r. reflexivity. }
    destruct (Z.eq_dec c 100) as [->|N2].
    { destruct (fd_open_cases ".dis" eq_refl) as [[E L]|[E L]]; rewrite E; cbn [bind].
      - repeat split; [exact L|]. cbn. lia.
      - apply Same; try reflexivity. cbn. rewrite andb_true_r. reflexivity. }
    destruct (Z.eq_dec c 98) as [->|N3].
    { destruct (fd_open_cases ".bin" eq_refl) as [[E L]|[E L]]; rewrite E; cbn [bind].
      - repeat split; [exact L|]. cbn. lia.
      - apply Same; try reflexivity. cbn. rewrite andb_true_r. reflexivity. }
    destruct (Z.eq_dec c 110) as [->|N4].
    { apply Same; try reflexivity. cbn. rewrite andb_false_r. reflexivity. }
    assert (E : forall (A : Type) (x1 x2 x3 x4 x5 : A),
      match c with 97 => x1 | 100 => x2 | 98 => x3 | 110 => x4 | _ => x5 end = x5).
    { intros A x1 x2 x3 x4 x5. destruct c as [|c|c]; try reflexivity. do 7 (try destruct c as [c|c|]); try reflexivity; exfalso; (apply N1; reflexivity) || (apply N2; reflexivity) || (apply N3; reflexivity) || (apply N4; reflexivity). }
    rewrite E. apply Same; unfold opened; try reflexivity.
    - replace (c =? 110) with false by lia. cbn. rewrite andb_true_r. reflexivity.
    - replace (c =? 97) with false by lia. reflexivity.
    - replace (c =? 100) with false by lia. reflexivity.
    - replace (c =? 98) with false by lia. reflexivity.
  Qed.
End CommandLine.

(** The exit code says what happened. *)
Theorem C104_exit_code : forall fs can fuel addr ff args x,
  comp_main fs can fuel addr ff args = Ok x ->
  x_code x =
  match args with
  | [] => -1
  | _ => match load_all fs [] (ToolSpec.operands args) with
         | None => -2
         | Some m => match build fuel fs addr (negb (given 110 args)) [] m with Ok (Some _) => 0 | _ => 1 end
         end
  end.
Proof.
  intros fs can fuel addr ff args x. unfold comp_main. destruct args as [|a1 rest]; [intros E; injection E as <-; reflexivity|].
  pose proof (args_cases fs can a1 (a1 :: rest) (Request [] true None None None)) as A. cbn [q_sources q_optimize q_ast q_dis q_bin andb] in A.
  destruct (comp_args fs can a1 (a1 :: rest) _) as [[q|]|? ?|y]; cbn [bind].
  - destruct A as (A1 & A2 & _). rewrite A1, <- A2, build_of_tree.
    destruct (build_tree _ _ _ _ _ _) as [[[p tree]|]|? ?|y]; try (intros E; injection E as <-; reflexivity); [|discriminate].
    intros E. apply bind_ok in E. destruct E as (a & _ & E). apply bind_ok in E. destruct E as (d & _ & E). injection E as <-. reflexivity.
  - rewrite A. intros E. injection E as <-. reflexivity.
  - contradiction.
  - discriminate.
Qed.

(** On success each requested file that can be created is written, and no other. *)
Theorem C104_files : forall fs can fuel addr ff a1 rest x,
  comp_main fs can fuel addr ff (a1 :: rest) = Ok x -> x_code x = 0 ->
  exists m p tree, load_all fs [] (ToolSpec.operands (a1 :: rest)) = Some m /\
    build_tree fuel fs addr (negb (given 110 (a1 :: rest))) [] m = Ok (Some (p, tree)) /\
    forall path data, In (path, data) (x_files x) <-> can path = true /\
      (given 97 (a1 :: rest) = true /\ path = a1 ++ bs ".ast" /\ data = outline 0 (program_tree ff tree) \/
       given 100 (a1 :: rest) = true /\ path = a1 ++ bs ".dis" /\ list_program p = Ok data \/
       given 98 (a1 :: rest) = true /\ path = a1 ++ bs ".bin" /\ data = p_code p).
Proof.
  intros fs can fuel addr ff a1 rest x. unfold comp_main.
  pose proof (args_cases fs can a1 (a1 :: rest) (Request [] true None None None)) as A. cbn [q_sources q_optimize q_ast q_dis q_bin andb] in A.
  destruct (comp_args fs can a1 (a1 :: rest) _) as [[q|]|? ?|y]; cbn [bind]; try (intros E; injection E as <-; discriminate); try contradiction; try discriminate.
  destruct A as (A1 & A2 & A3 & A4 & A5). intros E C.
  destruct (build_tree fuel fs addr (q_optimize q) [] (q_sources q)) as [[[p tree]|]|? ?|y] eqn:B; try (injection E as <-; discriminate C); [|discriminate].
  exists (q_sources q), p, tree. split; [exact A1|]. split; [rewrite <- A2; exact B|].
  apply bind_ok in E. destruct E as (a & Ea & E). apply bind_ok in E. destruct E as (d & Ed & E). injection E as <-. cbn [x_files].
  assert (W : forall on ext data path dat, In (path, dat) (written (opened can a1 on ext None) data) <->
    can path = true /\ on = true /\ path = a1 ++ bs ext /\ dat = data).
  { intros on ext data path dat. unfold opened, written. destruct on; [|cbn; split; [contradiction|intros (_ & H & _); discriminate H]].
    destruct (can (a1 ++ bs ext)) eqn:Ca; cbn [In].
    - split; [intros [H|[]]; injection H as <- <-; auto|intros (H1 & _ & -> & ->); auto].
    - split; [contradiction|intros (H1 & _ & -> & _); congruence]. }
  assert (Ga : forall path dat, In (path, dat) (written (q_ast q) a) <->
    can path = true /\ given 97 (a1 :: rest) = true /\ path = a1 ++ bs ".ast" /\ dat = outline 0 (program_tree ff tree)).
  { intros path dat. rewrite A3, W. split; intros (H1 & H2 & H3 & H4); (repeat split; try assumption); rewrite A3 in Ea; unfold opened in Ea; rewrite H2, <- H3, H1 in Ea;
      pose proof (tree_shown ff tree) as T; unfold shows in T; rewrite T in Ea; destruct (lost (program_tree ff tree)); try discriminate; congruence. }
  assert (Gd : forall path dat, In (path, dat) (written (q_dis q) d) <->
    can path = true /\ given 100 (a1 :: rest) = true /\ path = a1 ++ bs ".dis" /\ list_program p = Ok dat).
  { intros path dat. rewrite A4, W. split; intros (H1 & H2 & H3 & H4); (repeat split; try assumption); rewrite A4 in Ed; unfold opened in Ed; rewrite H2, <- H3, H1 in Ed; congruence. }
  intros path dat. rewrite !in_app_iff, Ga, Gd, A5, W. tauto.
Qed.

(** It fails to end in an orderly way only if the name of an output file is too
    long for its buffer, the tree to dump has a deleted node, or the compiler
    itself does. *)
Theorem C104_crashes : forall fs can fuel addr ff args e,
  (forall m p, load_all fs [] (ToolSpec.operands args) = Some m -> build fuel fs addr (negb (given 110 args)) [] m = Ok (Some p) -> fits p) ->
  comp_main fs can fuel addr ff args = Stuck e ->
  exists a1 rest, args = a1 :: rest /\
  (e = SOob /\ 1024 <= zlen a1 + 4 /\ (given 97 args || given 100 args || given 98 args) = true \/
   exists m, load_all fs [] (ToolSpec.operands args) = Some m /\
     (build fuel fs addr (negb (given 110 args)) [] m = Stuck e \/
      e = SDangling /\ given 97 args = true /\
      exists p tree, build_tree fuel fs addr (negb (given 110 args)) [] m = Ok (Some (p, tree)) /\
        (has_kind "ast_exp_array_init_t" (program_tree ff tree) \/
         has_kind "ast_stmt_assign_member_t" (program_tree ff tree)))).
Proof.
  intros fs can fuel addr ff args e Fi. unfold comp_main. destruct args as [|a1 rest]; [discriminate|]. intros E. exists a1, rest. split; [reflexivity|]. revert E.
  pose proof (args_cases fs can a1 (a1 :: rest) (Request [] true None None None)) as A. cbn [q_sources q_optimize q_ast q_dis q_bin andb] in A.
  destruct (comp_args fs can a1 (a1 :: rest) _) as [[q|]|? ?|y]; cbn [bind]; try discriminate.
  2: { destruct A as (-> & L & G). intros E. injection E as <-. left. auto. }
  destruct A as (A1 & A2 & A3 & A4 & A5). intros E. right. exists (q_sources q). split; [exact A1|]. rewrite <- A2. rewrite build_of_tree.
  destruct (build_tree fuel fs addr (q_optimize q) [] (q_sources q)) as [[[p tree]|]|? ?|y] eqn:B; try discriminate.
  2: { left. congruence. }
  right. destruct (q_ast q) as [path|] eqn:Qa.
  - rewrite A3 in Qa. unfold opened in Qa. destruct (given 97 (a1 :: rest)) eqn:G; [|discriminate].
    pose proof (tree_shown ff tree) as T. unfold shows in T. rewrite T in E. destruct (lost (program_tree ff tree)) eqn:L.
    + cbn [bind] in E. injection E as <-. split; [reflexivity|]. split; [reflexivity|]. exists p, tree. split; [reflexivity|]. apply lost_iff. exact L.
    + exfalso. cbn [bind] in E. assert (B' : build fuel fs addr (q_optimize q) [] (q_sources q) = Ok (Some p)) by (rewrite build_of_tree, B; reflexivity).
      rewrite A2 in B'; destruct (C101_listing _ _ _ _ _ _ _ B' (Fi _ _ A1 B')) as (t & Li & _). rewrite Li in E. destruct (q_dis q); discriminate E.
  - exfalso. cbn [bind] in E. assert (B' : build fuel fs addr (q_optimize q) [] (q_sources q) = Ok (Some p)) by (rewrite build_of_tree, B; reflexivity).
    rewrite A2 in B'; destruct (C101_listing _ _ _ _ _ _ _ B' (Fi _ _ A1 B')) as (t & Li & _). rewrite Li in E. destruct (q_dis q); discriminate E.
Qed.
Print Assumptions C104_exit_code.
Print Assumptions C104_files.
Print Assumptions C104_crashes.

(** A text whose tree is dumped, and one whose tree has a deleted node. *)
Definition lit_text : bytes := bs "
function main()
  var a = [1, 2]
  return a[0]
end
"%string.
Definition lit_sources : list source_t := snd (sm_load_from_string [] lit_text).
Definition no_float : f32 -> bytes := fun _ => [].
Definition tree_of (m : list source_t) : list ritem :=
  match build_tree 5 (fun _ => None) Z.of_nat true [] m with Ok (Some (_, t)) => t | _ => [] end.
Definition prog_of (m : list source_t) : program_t :=
  match build_tree 5 (fun _ => None) Z.of_nat true [] m with Ok (Some (p, _)) => p | _ => Prog [] [] [] [] [] [] end.
Definition tool_outline : bytes := bs "ast_program_t
.  ast_decl_var_t {name: total}
.  .  ast_exp_lit_var_t {value: 3}
.  ast_decl_func_t {name: add}
.  .  ast_decl_var_t {name: x}
.  .  ast_block_t
.  .  .  ast_stmt_if_t
.  .  .  .  ast_exp_bin_op_t {op: >}
.  .  .  .  .  ast_exp_ident_t {name: x}
"%string.
Example C102_ex :
  build_tree 5 (fun _ => None) Z.of_nat true [] tool_sources = Ok (Some (prog_of tool_sources, tree_of tool_sources)) /\
  lost (program_tree no_float (tree_of tool_sources)) = false /\
  zfirstn (zlen tool_outline) (outline 0 (program_tree no_float (tree_of tool_sources))) = tool_outline /\
  build_tree 5 (fun _ => None) Z.of_nat true [] lit_sources = Ok (Some (prog_of lit_sources, tree_of lit_sources)) /\
  lost (program_tree no_float (tree_of lit_sources)) = true.
Proof. split; [vm_compute; reflexivity|]. split; [vm_compute; reflexivity|]. split; [vm_compute; reflexivity|]. split; vm_compute; reflexivity. Qed.

Example C103_ex : tool_build = Ok (Some tool_prog) /\ zlen (p_code tool_prog) = 90 /\
  match serial_load p_empty (serial_save tool_prog) with Ok (true, Some p) => p_code p = p_code tool_prog | _ => False end.
Proof. split; [vm_compute; reflexivity|]. split; vm_compute; reflexivity. Qed.

Definition disk (path : bytes) : option bytes :=
  if bytes_eqb path (bs "a") then Some tool_text else if bytes_eqb path (bs "b") then Some lit_text else None.
Definition comp (args : list bytes) : res Tools.outcome := comp_main disk (fun _ => true) 5 Z.of_nat no_float args.
Example C104_ex :
  match comp (map bs ["a"; "-d"; "-b"]%string) with
  | Ok x => x_code x = 0 /\ map fst (x_files x) = map bs ["a.dis"; "a.bin"]%string /\ map snd (x_files x) <> [[]; []]
  | _ => False
  end /\
  match comp (map bs ["-a"; "a"]%string) with Ok x => map fst (x_files x) = [bs "-a.ast"] | _ => False end /\
  match comp (map bs ["a"; "c"]%string) with Ok x => x_code x = -2 | _ => False end /\
  match comp (map bs ["-b"]%string) with Ok x => x_code x = 1 /\ x_files x = [(bs "-b.bin", [])] | _ => False end /\
  comp (map bs ["b"; "-a"]%string) = Stuck SDangling /\
  comp [zrepeat 45 1020; bs "a"; bs "-b"] = Stuck SOob.
Proof. vm_compute. repeat split. discriminate. Qed.
