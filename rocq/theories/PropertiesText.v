(** C105: the texts of a compiled program, and its image. *)
From Coq Require Import ZArith List Bool Lia ZifyBool String.
From Verif Require Import Base BaseFacts F32 Instr InstrSpec Program ProgramSpec ProgramProofs VM AbsHeap Gc GcSpec Refine Host HostProofs Demo VmSpec CgSpec Ast
  Source Lexer LexSpec Parser Sema SemaSpec Codegen Optimize Build Events LineOrigin TextSpec ParseFine PropertiesCodegen PropertiesImage PropertiesBuild
  PropertiesBuiltins PropertiesLine SafeSpec SafeVmSpec PropertiesSafe PropertiesSafeRun ImageBuild VmBlind PropertiesCompile.
From Verif Require SrcLines SrcNames.
Import ListNotations.
Open Scope list_scope.
Open Scope Z_scope.

(** ** C105 A compiled program says only what its sources say *)

(** Its strings, and the names of its functions with their parameters and locals,
    stand in the sources: as names or between quotes.  The one name the compiler
    invents is that of the initialiser. *)
Theorem C105_texts_are_written : forall fuel fs addr on regs m src m' p,
  parse_sources fuel fs m 0 [] [] = Ok (src, m') -> build fuel fs addr on regs m = Ok (Some p) ->
  (forall x, In x (p_strings p) -> x = [] \/ written m' x) /\
  (forall x, In x (names_in p) -> x = init_name \/ x = [] \/ written m' x).
Proof.
  intros fuel fs addr on regs m src m' p P B. destruct (SrcNames.build_texts _ _ _ _ _ _ _ _ _ P B) as [S1 S2].
  rewrite Forall_forall in S1, S2. split; assumption.
Qed.

(** Hence no string of a compiled program holds a zero byte, whatever bytes the
    sources hold. *)
Theorem C105_no_zero_bytes : forall fuel fs addr on regs m p, build fuel fs addr on regs m = Ok (Some p) ->
  forall x, In x (p_strings p) -> ~ In 0 x.
Proof.
  intros fuel fs addr on regs m p B. pose proof (SrcNames.build_nonul _ _ _ _ _ _ _ B) as N. unfold prog_nonul in N. rewrite Forall_forall in N. exact N.
Qed.

(** An image of a compiled program, read back and bound to the driver's
    functions, is for the host the program itself: every sequence of calls gives
    the same, and every address has the same line.  The sources hold bytes and are
    of a size an int can count; names and strings are shorter than 256 bytes. *)
Theorem C105_image_is_the_program : forall fuel fs addr on regs m src m' p old, loaded m ->
  parse_sources fuel fs m 0 [] [] = Ok (src, m') -> build fuel fs addr on regs m = Ok (Some p) -> fits p ->
  zlen m' <= i32_max -> (forall s data, In s m' -> so_data s = Some data -> bytes_ok data /\ zlen data < 2 ^ 31) ->
  Forall (fun x => zlen x < 256) (names_in p ++ p_strings p) ->
  Forall (fun r => str_wf (fst r)) regs ->
  exists q, serial_load old (serial_save p) = Ok (true, Some q) /\
    (forall N l v, host_gc (driver_resolve q) N l v = host_gc (driver_resolve p) N l v) /\
    (forall pc, Program.get_line q pc = Program.get_line p pc).
Proof.
  intros fuel fs addr on regs m src m' p old Ld P B F Zm D Sh Sr.
  assert (Sy : Forall (fun s => str_wf (s_name s)) (p_syscalls p)).
  { rewrite (proj1 (C107_syscall_table _ _ _ _ _ _ _ B)). apply Forall_forall. intros s I0. apply in_map_iff in I0. destruct I0 as (r & <- & I0).
    rewrite Forall_forall in Sr. exact (Sr r I0). }
  assert (L : forall a l, In (a, l) (p_lines p) -> line_of_word m' l).
  { apply (C98_lines_are_source_lines fuel fs addr on regs m src m' p Ld P B). intros s data I0 E. apply (D s data I0 E). }
  destruct (SrcNames.build_texts _ _ _ _ _ _ _ _ _ P B) as [S1 S2].
  assert (Wt : forall x, SrcNames.text_in m' x -> Forall (fun c => 0 < c < 256) x).
  { intros x. apply SrcNames.written_bytes. intros s data I0 E. destruct (D s data I0 E) as [Bd _]. clear -Bd.
    induction Bd as [|c d H Bd IH]; cbn [cstr]; [constructor|]. unfold byte_ok in H. destruct (c =? 0) eqn:Q; constructor; [lia|exact IH]. }
  destruct (build_parts _ _ _ _ _ _ _ B) as (src' & m2 & items0 & n0 & items & n & E1 & E2 & _ & E3 & Pok & Gen). clear E1 E2 E3.
  rewrite Forall_app, !Forall_forall in Sh. destruct Sh as [Sh1 Sh2]. rewrite Forall_forall in S1, S2.
  assert (Wn : forall x, In x (names_in p) -> str_wf x).
  { intros x I0. split; [apply Sh1; exact I0|]. destruct (S2 x I0) as [->|H]; [|apply Wt; exact H].
    unfold init_name. repeat constructor. }
  assert (W : prog_wf p).
  { destruct (made_code items n p Gen Pok F) as [C1 C2]. destruct (made_lines items n p Gen Pok F) as (L1 & L2 & L3).
    unfold prog_wf. split; [exact Sy|]. split; [exact (fi_syscalls _ F)|]. split.
    { apply Forall_forall. intros f If. destruct (made_func items n p Gen Pok F f If) as (A1 & A2 & A3 & A4 & A5 & A6).
      assert (Nf : forall x, x = f_name f \/ In x (map i_name (f_args f)) \/ In x (map i_name (f_locals f)) -> str_wf x).
      { intros x H. apply Wn. unfold names_in. apply in_flat_map. exists f. split; [exact If|]. cbn [In]. rewrite in_app_iff. intuition congruence. }
      split; [apply Nf; now left|]. split; [exact A1|]. split; [exact A2|].
      rewrite Forall_forall in A3, A4. split; [|split; [|split; [exact A5|exact A6]]]; apply Forall_forall; intros i Ii; split; auto; apply Nf; right;
        [right|left]; now apply in_map. }
    split; [exact (made_count items n p Gen Pok F)|]. split; [exact C1|]. split; [exact C2|]. split.
    { rewrite Forall_forall in L1. apply Forall_forall. intros [a l] Il. split; [exact (L1 _ Il)|]. cbn [snd].
      destruct (L a l Il) as (s & data & b & w & af & t & ts & text & Z0 & Dd & C & Lx & _ & _ & _ & Nl & _).
      pose proof (znth_some _ _ _ Z0) as R. destruct (D s data) as [_ Sz]; [eapply znth_In; exact Z0|exact Dd|].
      assert (Wl : 1 <= zlen w).
      { assert (w <> []); [|destruct w; [congruence|rewrite zlen_cons; pose proof (zlen_nonneg w); lia]].
        inversion Lx as [c Hc| |b0 Hb|b0 Hb Hb'|w0 Hn|u t0 Hu|ds Hd|ds fs0 Hd]; subst; try discriminate.
        - destruct Hn as (c & r & -> & _). discriminate.
        - unfold symbols in Hu. cbn [In] in Hu. intros ->. repeat (destruct Hu as [Hu|Hu]; [discriminate Hu|]). contradiction.
        - apply Hd.
        - destruct ds; discriminate. }
      assert (Nn : 0 <= newlines b <= zlen b).
      { clear. induction b as [|c b IH]; [change (0 <= 0 <= 0); lia|]. unfold newlines in *. cbn [filter]. destruct (c =? 10); rewrite ?zlen_cons; lia. }
      assert (Zc : zlen (cstr data) <= zlen data).
      { clear. induction data as [|c d IH]; cbn [cstr]; [lia|]. destruct (c =? 0); rewrite ?zlen_cons, ?zlen_nil; pose proof (zlen_nonneg d); lia. }
      rewrite C, !zlen_app in Zc. pose proof (zlen_nonneg af). unfold i32_max in *. unfold in_i32, i32_min, i32_max. split; lia. }
    split; [exact L2|]. split; [exact L3|]. split; [|exact (fi_strings _ F)].
    apply Forall_forall. intros x Ix. split; [apply Sh2; exact Ix|apply Wt, S1; exact Ix]. }
  destruct (C05_image_round_trip p old W) as (q & Lq & Q1 & Q2 & Q3 & Q4 & Q5). exists q. split; [exact Lq|].
  destruct (C06_image_loses p old q W Lq) as [G U].
  assert (Es : p_syscalls q = p_syscalls p).
  { pose proof (made_unbound items n p Gen Pok) as Un. rewrite Forall_forall in Un. revert Q1 U Un. generalize (p_syscalls q) (p_syscalls p).
    clear. induction l as [|[a x] l IH]; intros [|[b y] r] E U Un; try discriminate; [reflexivity|]. cbn [map s_name] in E. injection E as -> E.
    pose proof (U _ (or_introl eq_refl)) as U1. pose proof (Un _ (or_introl eq_refl)) as U2. cbn [s_call] in U1, U2. subst. f_equal.
    apply IH; [exact E|intros; apply U; now right|intros; apply Un; now right]. }
  assert (Eq : q = without_globals p).
  { unfold without_globals. rewrite <- G, <- Es, <- Q2, <- Q3, <- Q4, <- Q5. destruct q; reflexivity. }
  split.
  - intros N l v. rewrite Eq.
    assert (K : forall t r, fold_left (fun q x => snd (syscall_resolve q (fst x) (snd x))) t (without_globals r) =
      without_globals (fold_left (fun q x => snd (syscall_resolve q (fst x) (snd x))) t r)).
    { induction t as [|x t IH]; intros r; cbn [fold_left]; [reflexivity|]. rewrite <- IH. reflexivity. }
    unfold driver_resolve. rewrite K. exact (vm_blind (builtins_resolve (fold_left (fun q x => snd (syscall_resolve q (fst x) (snd x))) driver_map p)) N l v).
  - intros pc. unfold Program.get_line. rewrite Q4. reflexivity.
Qed.

(** The program of C100's example, read back from its image and run: the same
    results as the program itself.  Its strings and names are those of the text. *)
Definition image_again : res (bool * option program_t) := serial_load (Prog [] [] [] [] [] []) (serial_save work_prog).
Definition image_prog : program_t := match image_again with Ok (_, Some q) => q | _ => Prog [] [] [] [] [] [] end.
Definition work_m : list source_t := snd (sm_load_from_string [] work_text).
Definition work_src : list item := match parse_sources 5 (fun _ => None) work_m 0 [] [] with Ok (src, _) => src | _ => [] end.
Definition str_wfb (s : bytes) : bool := (zlen s <? 256) && forallb (fun c => (0 <? c) && (c <? 256)) s.
Lemma str_wfb_ok s : str_wfb s = true -> str_wf s.
Proof.
  unfold str_wfb, str_wf. intros H. apply andb_true_iff in H. destruct H as [A B]. split; [lia|]. rewrite forallb_forall in B.
  apply Forall_forall. intros c I0. specialize (B c I0). lia.
Qed.
Lemma all_b {A} (f : A -> bool) (Q : A -> Prop) l : (forall x, f x = true -> Q x) -> forallb f l = true -> Forall Q l.
Proof. intros H F. rewrite forallb_forall in F. apply Forall_forall. auto. Qed.
Lemma work_parsed : parse_sources 5 (fun _ => None) work_m 0 [] [] = Ok (work_src, work_m).
Proof. vm_compute. reflexivity. Qed.
Lemma work_built : build 5 (fun _ => None) Z.of_nat true (driver_arity ++ builtin_arity) work_m = Ok (Some work_prog).
Proof. vm_compute. reflexivity. Qed.
Lemma work_again : serial_load (Prog [] [] [] [] [] []) (serial_save work_prog) = Ok (true, Some image_prog).
Proof. vm_compute. reflexivity. Qed.
Lemma work_short : Forall (fun x => zlen x < 256) (names_in work_prog ++ p_strings work_prog).
Proof. apply (all_b (fun x => zlen x <? 256)); [intros; lia|]. vm_compute. reflexivity. Qed.
Lemma work_syscalls : Forall (fun r => str_wf (fst r)) (driver_arity ++ builtin_arity).
Proof. apply (all_b (fun r => str_wfb (fst r))); [intros; now apply str_wfb_ok|]. vm_compute. reflexivity. Qed.
Lemma work_source s data : In s work_m -> so_data s = Some data -> bytes_ok data /\ zlen data < 2 ^ 31.
Proof.
  assert (K : forallb (fun s => match so_data s with Some d => (zlen d <? 2 ^ 31) && forallb (fun c => (0 <=? c) && (c <? 256)) d | None => true end) work_m = true)
    by (vm_compute; reflexivity).
  intros I0 E. rewrite forallb_forall in K. specialize (K s I0). rewrite E in K. apply andb_true_iff in K. destruct K as [A B]. split; [|lia].
  rewrite forallb_forall in B. apply Forall_forall. intros c Ic. specialize (B c Ic). unfold byte_ok. lia.
Qed.
Lemma loaded_same (a b : program_t) : Ok (true, Some a) = Ok (true, Some b) -> a = b.
Proof. congruence. Qed.
Example C105_ex :
  loaded work_m /\ build 5 (fun _ => None) Z.of_nat true (driver_arity ++ builtin_arity) work_m = Ok (Some work_prog) /\ fits work_prog /\
  p_strings work_prog = [bs "total "] /\
  names_in work_prog = [bs "add"; bs "x"; bs "y"; bs "main"; bs "n"; bs "i"; bs "a"; bs "f"; init_name] /\
  serial_load (Prog [] [] [] [] [] []) (serial_save work_prog) = Ok (true, Some image_prog) /\ p_globals work_prog <> [] /\ p_globals image_prog = [] /\
  forall N l v, host_gc (driver_resolve image_prog) N l v = host_gc (driver_resolve work_prog) N l v.
Proof.
  split; [apply loaded_text; constructor|]. split; [exact work_built|]. split; [apply fitsb_ok; vm_compute; reflexivity|].
  split; [vm_compute; reflexivity|]. split; [vm_compute; reflexivity|]. split; [exact work_again|].
  split; [vm_compute; discriminate|]. split; [vm_compute; reflexivity|].
  destruct (C105_image_is_the_program 5 (fun _ => None) Z.of_nat true (driver_arity ++ builtin_arity) work_m work_src work_m work_prog (Prog [] [] [] [] [] []))
    as (q & Lq & R & _).
  - apply loaded_text. constructor.
  - exact work_parsed.
  - exact work_built.
  - apply fitsb_ok; vm_compute; reflexivity.
  - vm_compute. discriminate.
  - exact work_source.
  - exact work_short.
  - exact work_syscalls.
  - assert (E : q = image_prog).
    { apply loaded_same. rewrite <- Lq. exact work_again. }
    clear Lq. subst q.
    exact R.
Qed.

Print Assumptions C105_texts_are_written.
Print Assumptions C105_no_zero_bytes.
Print Assumptions C105_image_is_the_program.
