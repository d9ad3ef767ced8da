(** Properties of the bytecode encoding, the program image and the sources:
    C01, C03-C16.  Each theorem is followed by a concrete case that meets its
    hypotheses. *)
From Coq Require Import ZArith List Bool Lia String Sorted ZifyBool.
From Verif Require Import Base BaseFacts Instr InstrSpec InstrProofs
  Program ProgramSpec ProgramProofs Source SourceProofs.
Import ListNotations.
Open Scope Z_scope.

(** ** C01 *)
Theorem C01_emit_disasm : forall x code rest,
  ins_wf x -> emit x = Ok code -> disasm (code ++ rest) = Ok (text x, zlen code).
Proof. exact disasm_emit. Qed.
Print Assumptions C01_emit_disasm.

(** every instruction has exactly one operand count with which it can be emitted *)
Theorem C01_emit_total : forall x,
  (exists code, emit x = Ok code) <->
  match x with
  | I0 i => operands i = 0 | I1 i _ => operands i = 1 | I2 i _ _ => operands i = 2
  end.
Proof. exact emit_ok_iff. Qed.
Print Assumptions C01_emit_total.

Theorem C01_emit_len : forall x code,
  emit x = Ok code -> zlen code = 1 + 4 * operands (ins_op x).
Proof. exact emit_len. Qed.
Print Assumptions C01_emit_len.

(** a listing shows exactly the emitted instructions ... *)
Theorem C01_listing : forall l code fuel,
  Forall ins_wf l -> emit_all l = Ok code -> (List.length code <= fuel)%nat ->
  dump fuel code = Ok (map text l).
Proof. exact dump_emit. Qed.
Print Assumptions C01_listing.

(** ... and determines them. *)
Theorem C01_text_injective : forall x y, text x = text y -> x = y.
Proof. exact text_inj. Qed.
Print Assumptions C01_text_injective.

Example C01_ex :
  let l := [I1 INS_NEW_INT (-7); I2 INS_CALL 0 1000000; I0 INS_ADD] in
  exists code, Forall ins_wf l /\ emit_all l = Ok code /\ zlen code = 15 /\
  dump 15 code = Ok [bs "INS_NEW_INT -7"; bs "INS_CALL 0 1000000"; bs "INS_ADD"].
Proof.
  eexists. split; [|split; [reflexivity|split; reflexivity]].
  repeat constructor.
Qed.

(** ** C03 *)
Theorem C03_fixup_local : forall code i v,
  0 <= i -> i + 4 <= zlen code ->
  exists code', apply_fixup code i v = Ok code' /\
    zlen code' = zlen code /\
    rd32 (zskipn i code') = Some (to_i32 v, zskipn (i + 4) code) /\
    (forall j, j < i \/ i + 4 <= j -> znth code' j = znth code j).
Proof. exact apply_fixup_ok. Qed.
Print Assumptions C03_fixup_local.

Example C03_ex : apply_fixup [14; 0; 0; 0; 0; 25] 1 (-2) = Ok [14; 254; 255; 255; 255; 25].
Proof. reflexivity. Qed.

(** ** C04 (finding) *)
Theorem C04_has_operand_wrong : forall i,
  (ins_has_operand i = true <-> operands i > 0) <->
  ~ In i [INS_ICALL; INS_NEW_ARY; INS_NEW_FUNC; INS_NEW_SCALL].
Proof.
  intros i; split.
  - intros H [<-|[<-|[<-|[<-|[]]]]];
      (assert (C : false = true) by (apply H; reflexivity); discriminate C).
  - intros H. destruct i; simpl in *; split; intros; auto; try lia; try discriminate;
      exfalso; tauto.
Qed.
Print Assumptions C04_has_operand_wrong.

Theorem C04_has_operand_refuted :
  ~ (forall i, ins_has_operand i = true <-> operands i > 0).
Proof.
  intros H. specialize (H INS_ICALL).
  assert (C : false = true) by (apply H; reflexivity). discriminate.
Qed.
Print Assumptions C04_has_operand_refuted.

(** ** C05 *)
Theorem C05_image_round_trip : forall p old,
  prog_wf p ->
  exists q, serial_load old (serial_save p) = Ok (true, Some q) /\ preserved p q.
Proof.
  intros p old W. exists (reloaded p). split.
  - rewrite <- (app_nil_r (serial_save p)). now apply load_save.
  - unfold preserved, reloaded; cbn. rewrite map_map. auto.
Qed.
Print Assumptions C05_image_round_trip.

Definition ex_prog : program_t :=
  Prog [Ident (bs "g") 0]
       [Sysc (bs "putc") (Some F_putc); Sysc (bs "max") None]
       [Func (bs "main") 0 12 [Ident (bs "x") 1] [Ident (bs "a") (-1); Ident (bs "b") (-2)]]
       [22; 7; 0; 0; 0; 18; 2; 0; 0; 0]
       [(0, Line 0 1); (5, Line 0 2)]
       [bs "hello"; []].

Example C05_ex : prog_wf ex_prog.
Proof.
  unfold prog_wf, ex_prog, count_ok, bytes_ok, byte_ok, lines_sorted, func_wf, str_wf, ident_wf, line_wf.
  cbn -[zlen Z.lt in_i32].
  repeat split; repeat (constructor; cbn -[zlen Z.lt in_i32]); try reflexivity; try (cbv; discriminate); try lia.
Qed.

(** ** C06 (finding) *)
Theorem C06_image_loses : forall p old q,
  prog_wf p -> serial_load old (serial_save p) = Ok (true, Some q) ->
  p_globals q = [] /\ (forall s, In s (p_syscalls q) -> s_call s = None).
Proof.
  intros p old q W H.
  pose proof (load_save p W old []) as L. rewrite app_nil_r in L.
  rewrite L in H. injection H as <-. split; auto.
  intros s I. apply in_map_iff in I as (t & <- & _). reflexivity.
Qed.
Print Assumptions C06_image_loses.

Theorem C06_identity_refuted :
  ~ (forall p old, prog_wf p -> serial_load old (serial_save p) = Ok (true, Some p)).
Proof.
  intros H. specialize (H ex_prog p_empty C05_ex). vm_compute in H. discriminate.
Qed.
Print Assumptions C06_identity_refuted.

(** a string with a NUL inside comes back truncated *)
Theorem C06_nul_truncated : forall a b old,
  Forall (fun c => 0 < c < 256) a -> zlen a + 1 + zlen b < 256 -> bytes_ok b ->
  exists q, serial_load old (serial_save (Prog [] [] [] [] [] [a ++ 0 :: b])) = Ok (true, Some q)
            /\ p_strings q = [a].
Proof.
  intros a b old A L B. exists (Prog [] [] [] [] [] [a]). split; [|reflexivity].
  pose proof (zlen_nonneg a). pose proof (zlen_nonneg b).
  set (s := a ++ 0 :: b).
  assert (LS : zlen s = zlen a + 1 + zlen b)
    by (unfold s; rewrite zlen_app, zlen_cons; lia).
  assert (I : in_i32 (zlen s) = true) by (apply in_i32_iff; lia).
  assert (CS : cstr s = a).
  { unfold s. clear - A. induction A as [|c a H F IH]; simpl; auto.
    destruct (c =? 0) eqn:E; [lia|]. now rewrite IH. }
  assert (R : reads c_str (w_str s) a).
  { intros rest. unfold c_str, w_str. rewrite <- app_assoc, c_int_reads by auto. cbn [bind].
    unfold assert_. destruct (zlen s <? 256) eqn:E; [|lia]. cbn [bind].
    destruct (zlen s <? 0) eqn:E2; [lia|].
    rewrite fread_app. now rewrite CS. }
  assert (RP : reads c_program (serial_save (Prog [] [] [] [] [] [s]))
                     (Prog [] [] [] [] [] [a])).
  { unfold c_program, serial_save.
    cbn [p_syscalls p_functions p_code p_lines p_strings].
    eapply reads_bind; [apply c_int_reads, magic_i32|].
    change (negb (magic =? to_i32 magic)) with false. cbn iota.
    eapply reads_bind; [apply (c_list_reads _ c_sys []); [discriminate|constructor]|].
    eapply reads_bind; [apply (c_list_reads _ c_func []); [discriminate|constructor]|].
    rewrite app_assoc.
    eapply reads_bind; [apply (c_code_reads []); discriminate|].
    eapply reads_bind; [apply (c_list_reads _ c_line []); [discriminate|constructor]|].
    apply (reads_map (c_list c_str) (fun strs => Prog [] [] [] [] [] strs)).
    unfold c_list, w_list. eapply reads_bind; [apply c_int_reads; reflexivity|].
    cbn [Z.to_nat zlen List.length c_times flat_map].
    change (Z.to_nat (zlen [s])) with 1%nat. cbn [c_times].
    eapply reads_bind; [exact R|]. intros rest. reflexivity. }
  unfold serial_load. fold s. rewrite <- (app_nil_r (serial_save _)), RP.
  unfold serial_save. rewrite <- app_assoc, c_int_reads by reflexivity. reflexivity.
Qed.
Print Assumptions C06_nul_truncated.

(** ** C07 *)
Theorem C07_truncated_rejected : forall p old a b,
  prog_wf p -> serial_save p = a ++ b -> b <> [] ->
  exists o, serial_load old a = Ok (false, o).
Proof. intros p old a b W. exact (load_cut p W old a b). Qed.
Print Assumptions C07_truncated_rejected.

Example C07_ex : exists a b, serial_save ex_prog = a ++ b /\ b <> [] /\ zlen a = 100.
Proof.
  exists (zfirstn 100 (serial_save ex_prog)), (zskipn 100 (serial_save ex_prog)).
  repeat split; vm_compute; discriminate.
Qed.

(** ** C08 *)
Theorem C08_bad_magic_rejected : forall old file,
  bytes_ok file ->
  (forall rest, file <> [67; 67; 77; 76] ++ rest) ->
  serial_load old file = Ok (false, Some (Prog [] [] [] [] [] [])).
Proof. intros old file B H. now apply load_bad_magic. Qed.
Print Assumptions C08_bad_magic_rejected.

Example C08_ex : bytes_ok [67; 67; 77; 77; 0; 0] /\
  (forall rest, [67; 67; 77; 77; 0; 0] <> [67; 67; 77; 76] ++ rest).
Proof. split; [repeat constructor; discriminate|discriminate]. Qed.

(** ** C09 *)
Theorem C09_trailing_bytes : forall p old junk,
  prog_wf p -> serial_load old (serial_save p ++ junk) = serial_load old (serial_save p).
Proof.
  intros p old junk W. rewrite (load_save p W).
  rewrite <- (app_nil_r (serial_save p)). now rewrite (load_save p W).
Qed.
Print Assumptions C09_trailing_bytes.

(** ** C10 *)
(** recording a list of (pc, line) pairs, last one first, program.h:98-100 *)
Fixpoint recorded (l : list (Z * line_t)) : list (Z * line_t) :=
  match l with [] => [] | (pc, ln) :: t => lt_set (recorded t) pc ln end.

(** the most recent line recorded for a pc *)
Fixpoint latest (l : list (Z * line_t)) (pc : Z) : line_t :=
  match l with
  | [] => Line (-1) (-1)
  | (k, ln) :: t => if pc =? k then ln else latest t pc
  end.

Theorem C10_line_table : forall l p pc,
  in_i32 pc = true -> p_lines p = recorded l -> Program.get_line p pc = latest l pc.
Proof.
  intros l p pc H E. unfold Program.get_line. rewrite E, to_i32_id by auto. clear.
  induction l as [|[k ln] l IH]; cbn; auto.
  destruct (pc =? k) eqn:E.
  - replace k with pc by lia. now rewrite lt_find_set_same.
  - now rewrite lt_find_set_other by lia.
Qed.
Print Assumptions C10_line_table.

Theorem C10_line_table_sorted : forall l, lines_sorted (recorded l).
Proof.
  induction l as [|[k ln] l IH]; cbn; [constructor|]. now apply lt_set_sorted.
Qed.
Print Assumptions C10_line_table_sorted.

Theorem C10_line_table_reload : forall p old q pc,
  prog_wf p -> serial_load old (serial_save p) = Ok (true, Some q) ->
  Program.get_line q pc = Program.get_line p pc.
Proof.
  intros p old q pc W H. destruct (C05_image_round_trip p old W) as (q' & H' & P).
  rewrite H in H'. injection H' as <-. unfold preserved in P.
  unfold Program.get_line. now destruct P as (_ & _ & _ & -> & _).
Qed.
Print Assumptions C10_line_table_reload.

Example C10_ex : Program.get_line
  (Prog [] [] [] [] (recorded [(5, Line 0 9); (0, Line 0 1); (5, Line 0 2)]) []) 5 = Line 0 9.
Proof. reflexivity. Qed.

(** ** C11 *)
Theorem C11_function_find : forall p n,
  match function_find p n with
  | Some f => exists before after, p_functions p = before ++ f :: after /\ f_name f = n /\
              Forall (fun g => f_name g <> n) before
  | None => Forall (fun g => f_name g <> n) (p_functions p)
  end.
Proof.
  intros p n. unfold function_find. induction (p_functions p) as [|f l IH]; cbn; auto.
  destruct (bytes_eqb (f_name f) n) eqn:E.
  - apply bytes_eqb_eq in E. exists [], l. auto.
  - apply bytes_eqb_neq in E. destruct (find _ l) as [g|].
    + destruct IH as (b & a & -> & N & F). exists (f :: b), a. auto.
    + auto.
Qed.
Print Assumptions C11_function_find.

Theorem C11_function_find_pc : forall p pc,
  match function_find_pc p pc with
  | Some f => exists before after, p_functions p = before ++ f :: after /\
              f_start f <= pc < f_end f /\
              Forall (fun g => ~ (f_start g <= pc < f_end g)) before
  | None => Forall (fun g => ~ (f_start g <= pc < f_end g)) (p_functions p)
  end.
Proof.
  intros p pc. unfold function_find_pc. induction (p_functions p) as [|f l IH]; cbn; auto.
  destruct ((f_start f <=? pc) && (pc <? f_end f)) eqn:E.
  - exists [], l. split; auto. split; auto. lia.
  - assert (N : ~ (f_start f <= pc < f_end f)) by lia. destruct (find _ l) as [g|].
    + destruct IH as (b & a & -> & Q & F). exists (f :: b), a. auto.
    + auto.
Qed.
Print Assumptions C11_function_find_pc.

Example C11_ex : option_map f_name (function_find_pc ex_prog 11) = Some (bs "main") /\
                 function_find_pc ex_prog 12 = None.
Proof. split; reflexivity. Qed.

(** ** C12 *)
Theorem C12_syscall_resolve : forall p n fn,
  let (ok, q) := syscall_resolve p n fn in
  (ok = true <-> exists s, In s (p_syscalls p) /\ s_name s = n) /\
  (forall i, match znth (p_syscalls p) i, znth (p_syscalls q) i with
             | Some s, Some t => s_name t = s_name s /\
                 (s_name s = n -> s_call t = Some fn) /\
                 (s_name s <> n -> s_call t = s_call s)
             | None, None => True
             | _, _ => False
             end) /\
  p_globals q = p_globals p /\ p_functions q = p_functions p /\
  p_code q = p_code p /\ p_lines q = p_lines p /\ p_strings q = p_strings p.
Proof.
  intros p n fn. unfold syscall_resolve. cbn. repeat split; auto.
  - intros H. apply existsb_exists in H as (s & I & E). apply bytes_eqb_eq in E. eauto.
  - intros (s & I & E). apply existsb_exists. exists s. split; auto. now apply bytes_eqb_eq.
  - intros i. rewrite znth_map. destruct (znth (p_syscalls p) i) as [s|]; cbn; auto.
    destruct (bytes_eqb (s_name s) n) eqn:E; cbn; repeat split; auto.
    + intros N. apply bytes_eqb_eq in E. congruence.
    + intros N. apply bytes_eqb_neq in E. congruence.
Qed.
Print Assumptions C12_syscall_resolve.

Theorem C12_add_syscall : forall l n,
  let (i, l') := add_syscall l n in
  option_map s_name (znth l' i) = Some n /\
  (exists extra, l' = l ++ extra) /\
  (NoDup (map s_name l) -> NoDup (map s_name l')) /\
  (In n (map s_name l) -> l' = l).
Proof.
  intros l n. unfold add_syscall.
  assert (G : forall l k, match find_syscall l n k with
              | Some i => k <= i /\ option_map s_name (znth l (i - k)) = Some n
              | None => ~ In n (map s_name l) end).
  { clear l. induction l as [|s l IH]; intros k; cbn; auto.
    destruct (bytes_eqb (s_name s) n) eqn:E.
    - apply bytes_eqb_eq in E. split; [lia|]. replace (k - k) with 0 by lia. cbn. now rewrite E.
    - apply bytes_eqb_neq in E. specialize (IH (k + 1)).
      destruct (find_syscall l n (k + 1)) as [i|].
      + destruct IH as [L H]. split; [lia|]. destruct (i - k =? 0) eqn:Q; [lia|].
        now replace (i - k - 1) with (i - (k + 1)) by lia.
      + intros [C|C]; auto. }
  specialize (G l 0). destruct (find_syscall l n 0) as [i|].
  - destruct G as [_ G]. replace (i - 0) with i in G by lia.
    repeat split; auto. exists []. now rewrite app_nil_r.
  - rewrite znth_app2 by lia. replace (zlen l - zlen l) with 0 by lia. cbn.
    repeat split; eauto.
    + intros N. rewrite map_app. cbn. apply NoDup_Add with (a := n) (l := map s_name l).
      * rewrite <- (app_nil_r (map s_name l)) at 1. apply Add_app.
      * auto.
    + tauto.
Qed.
Print Assumptions C12_add_syscall.

Example C12_ex : fst (syscall_resolve ex_prog (bs "max") F_max) = true /\
  fst (syscall_resolve ex_prog (bs "nope") F_max) = false /\
  add_syscall (p_syscalls ex_prog) (bs "max") = (1, p_syscalls ex_prog).
Proof. repeat split; reflexivity. Qed.

(** ** C13 *)
Theorem C13_line_order :
  (forall a, line_lt a a = false) /\
  (forall a b c, line_lt a b = true -> line_lt b c = true -> line_lt a c = true) /\
  (forall a b, line_lt a b = true \/ line_eq a b = true \/ line_lt b a = true) /\
  (forall a b, line_eq a b = true <-> a = b) /\
  (forall a b, line_ne a b = negb (line_eq a b)) /\
  (forall a b, line_lt a b = true -> line_eq a b = false /\ line_lt b a = false).
Proof.
  unfold line_lt, line_eq, line_ne. repeat split; intros;
    repeat match goal with x : line_t |- _ => destruct x end; cbn in *;
    repeat match goal with |- context [if ?b then _ else _] => destruct b eqn:? end;
    repeat match goal with H : context [if ?b then _ else _] |- _ => destruct b eqn:? end;
    try discriminate; try lia.
  - f_equal; lia.
  - injection H as -> ->. lia.
Qed.
Print Assumptions C13_line_order.

(** ** C14 *)
Theorem C14_source_lines : forall t,
  ~ In 0 t -> t <> [] ->
  exists ini last,
    fst (load_from_string t) = true /\
    List.concat (ini ++ [last]) = t /\
    Forall (fun l => exists b, l = b ++ [10] /\ ~ In 10 b) ini /\ ~ In 10 last /\
    forall k, 1 <= k ->
      get_line (snd (load_from_string t)) k = Ok (znth (ini ++ [last]) (k - 1)).
Proof.
  intros t N NN. destruct (split_nl_shape t) as (ini & last & E & F & L).
  exists ini, last. repeat split; auto.
  - unfold load_from_string. rewrite cstr_nonul by auto. destruct t; [congruence|reflexivity].
  - rewrite <- E. apply concat_split_nl.
  - intros k K. rewrite <- E. now apply get_line_spec.
Qed.
Print Assumptions C14_source_lines.

Example C14_ex : get_line (snd (load_from_string [97; 10; 98; 99])) 2 = Ok (Some [98; 99]).
Proof. reflexivity. Qed.

(** ** C15 (finding) *)
Theorem C15_prefix_skip : forall fs m path,
  already m path <-> sm_load fs m path = (true, m).
Proof.
  intros fs m path; split.
  - apply sm_load_already.
  - intros H. destruct (existsb (fun s => path_cmp (so_path s) path) m) eqn:E.
    + apply existsb_exists in E as (s & I & C).
      apply path_cmp_iff in C as (p & r & -> & F). exists s, p, r. auto.
    + unfold sm_load in H. rewrite E in H.
      destruct (load_from_file fs path) as [ok s]. injection H as _ H.
      exfalso. apply (f_equal (@zlen source_t)) in H. rewrite zlen_app in H.
      change (zlen [s]) with 1 in H. lia.
Qed.
Print Assumptions C15_prefix_skip.

Theorem C15_failed_load_poisons : forall fs m path m' fs' path',
  sm_load fs m path = (false, m') -> sm_load fs' m' path' = (true, m').
Proof. exact sm_load_fail_poison. Qed.
Print Assumptions C15_failed_load_poisons.

(** the file "a.txt2" is never loaded once "a.txt" is *)
Example C15_ex :
  let fs := fun p => if bytes_eqb p (bs "a.txt") then Some [97] else
                     if bytes_eqb p (bs "a.txt2") then Some [98] else None in
  let m := snd (sm_load fs [] (bs "a.txt")) in
  sm_load fs m (bs "a.txt2") = (true, m) /\ List.length m = 1%nat.
Proof. split; reflexivity. Qed.

(** ** C16 *)
Theorem C16_import_path : forall s dir sep file n,
  (sep = 47 \/ sep = 92) -> ~ In 47 file -> ~ In 92 file ->
  so_path s = dir ++ sep :: file ->
  imported_path s n = dir ++ [47] ++ n.
Proof.
  intros s dir sep file n S N1 N2 E. unfold imported_path.
  now rewrite E, base_path_split.
Qed.
Print Assumptions C16_import_path.

Theorem C16_import_path_rooted : forall s n,
  ~ In 47 (so_path s) -> ~ In 92 (so_path s) -> imported_path s n = 47 :: n.
Proof.
  intros s n N1 N2. unfold imported_path. now rewrite base_path_none.
Qed.
Print Assumptions C16_import_path_rooted.

Example C16_ex : imported_path (Source (bs "dir\sub/main.txt") None []) (bs "lib.txt")
  = bs "dir\sub/lib.txt".
Proof. reflexivity. Qed.
