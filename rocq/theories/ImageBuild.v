(** Proof support for C105: a compiled program is one an image can hold. *)
From Coq Require Import ZArith List Bool Lia Sorted ZifyBool.
From Verif Require Import Base BaseFacts F32 Instr InstrSpec InstrProofs Program ProgramSpec ProgramProofs Source Ast Sema SemaSpec SemaFacts Codegen
  SrcSem CgSpec CgCode CgLayout CgSlots CgOps CgSim CgLink CgFlow LineSpec LineFacts.
Import ListNotations.
Open Scope list_scope.
Open Scope Z_scope.

Lemma le32_ok v : bytes_ok (le32 v).
Proof.
  unfold le32. repeat constructor; apply Z.mod_pos_bound; reflexivity.
Qed.
Lemma opcode_ok o : byte_ok (opcode o).
Proof. unfold byte_ok. destruct o; vm_compute; split; congruence. Qed.
Lemma enc_ok x : bytes_ok (enc x).
Proof.
  unfold enc. destruct (emit x) as [b| |] eqn:E; [|constructor|constructor].
  assert (K : exists y r, b = y :: r /\ byte_ok y /\ bytes_ok r).
  { destruct x as [o|o a|o a b']; cbn [emit] in E; [unfold emit0 in E|unfold emit1 in E|unfold emit2 in E];
      assert (Eb : b = [opcode o] \/ (exists v, b = opcode o :: le32 v) \/ exists v w, b = opcode o :: le32 v ++ le32 w)
        by (destruct o; try discriminate; injection E as <-; first [left; reflexivity|right; left; eexists; reflexivity|right; right; do 2 eexists; reflexivity]).
    all: clear E; destruct Eb as [->|[(v & ->)|(v & w & ->)]]; do 2 eexists; (split; [reflexivity|]); (split; [apply opcode_ok|]);
      [constructor|apply le32_ok|apply Forall_app; split; apply le32_ok]. }
  destruct K as (y & r & -> & A & B). constructor; assumption.
Qed.
Lemma code_bytes fa l : bytes_ok (code_of fa l).
Proof. unfold bytes_ok, code_of. apply Forall_flat_map, Forall_forall. intros x _. apply enc_ok. Qed.

Lemma marks_sorted l : forall a, lines_sorted (marks a l).
Proof.
  induction l as [|[o t] l IH]; intros a; cbn [marks]; [constructor|]. pose proof (ins_len_pos o). destruct t as [x|]; cbn [app]; [|apply IH].
  constructor; [apply IH|]. eapply Forall_impl; [|apply marks_range]. cbn [fst]. intros. lia.
Qed.
Lemma sorted_count (l : list (Z * line_t)) : forall a b, a <= b -> lines_sorted l -> Forall (fun x => a <= fst x < b) l -> zlen l <= b - a.
Proof.
  induction l as [|[k v] l IH]; intros a b Ab H F; [rewrite zlen_nil; lia|]. inversion H as [|? ? H1 H2]; subst. inversion F as [|? ? F1 F2]; subst. cbn [fst] in F1.
  rewrite zlen_cons. assert (K : zlen l <= b - (k + 1)); [|lia]. apply (IH (k + 1) b); [lia|exact H1|].
  rewrite Forall_forall in *. intros x I0. specialize (H2 x I0). specialize (F2 x I0). cbn [fst] in H2. lia.
Qed.
Lemma layout_count m sizes sx ng items : forall base k,
  zlen (layout m sizes sx ng items base k) <= clen (flat_map (pl_code m sizes sx ng) (layout m sizes sx ng items base k)).
Proof.
  intros base k. generalize (layout m sizes sx ng items base k). intros l. induction l as [|p l IH]; [rewrite zlen_nil; cbn [flat_map]; rewrite clen_nil; lia|].
  cbn [flat_map]. rewrite zlen_cons, clen_app. pose proof (cfunc_pos m sizes sx ng (pl_f p) (pl_args p) (pl_body p) (pl_base p) (pl_k p)).
  unfold pl_code at 1. lia.
Qed.
Lemma syscalls_unbound l : forall acc, Forall (fun s => s_call s = None) acc -> Forall (fun s => s_call s = None) (fold_left syscall_of l acc).
Proof.
  induction l as [|i l IH]; intros acc F; cbn [fold_left]; [exact F|]. apply IH. destruct i; cbn [syscall_of]; auto.
  unfold add_syscall. destruct (find_syscall acc (fd_name f) 0); cbn [snd]; [exact F|]. apply Forall_app. auto.
Qed.

Section Made.
  Variables (items : list ritem) (n : nat) (p : program_t).
  Hypothesis Gen : generate items n = Ok p.
  Hypothesis Pok : program_ok items n.

  Lemma made_unbound : Forall (fun s => s_call s = None) (p_syscalls p).
  Proof.
    destruct (gd_sys _ _ _ _ (made items n p p Gen Pok (bound_self p))) as (x & ->). apply Forall_app. split.
    - apply syscalls_unbound. constructor.
    - apply Forall_forall. intros s I0. apply in_map_iff in I0. destruct I0 as (y & <- & _). reflexivity.
  Qed.

  Hypothesis Fit : fits p.
  Lemma made_code : bytes_ok (p_code p) /\ count_ok (p_code p).
  Proof. rewrite (gd_code _ _ _ _ (made items n p p Gen Pok (bound_self p))) at 1. split; [apply code_bytes|apply (fi_code _ Fit)]. Qed.
  Lemma made_count : count_ok (p_functions p).
  Proof.
    unfold count_ok. pose proof (fi_code _ Fit) as C. pose proof (made items n p p Gen Pok (bound_self p)) as M.
    rewrite (gd_code _ _ _ _ M), zlen_code_of in C. rewrite (gd_funs _ _ _ _ M), zlen_map.
    pose proof (layout_count (g_slots items n) (g_sizes items n) (sys_index p) (g_ng items n) (g_items items n) 0 0) as K.
    fold (g_layout items n (sys_index p)) in K. change (flat_map (g_code_of items n (sys_index p)) (g_layout items n (sys_index p))) with
      (flat_map (pl_code (g_slots items n) (g_sizes items n) (sys_index p) (g_ng items n)) (g_layout items n (sys_index p))) in C. lia.
  Qed.
  Lemma made_func f : In f (p_functions p) -> in_i32 (f_start f) = true /\ in_i32 (f_end f) = true /\
    Forall (fun i => in_i32 (i_offset i) = true) (f_locals f) /\ Forall (fun i => in_i32 (i_offset i) = true) (f_args f) /\
    count_ok (f_locals f) /\ count_ok (f_args f).
  Proof.
    intros I0. destruct (ranges items n p Gen Pok f I0) as [R1 R2]. pose proof (fi_code _ Fit) as C.
    pose proof (fi_frames _ Fit) as Fr. rewrite Forall_forall in Fr. specialize (Fr f I0).
    pose proof (zlen_nonneg (f_args f)). pose proof (zlen_nonneg (f_locals f)).
    split; [apply small_i32; lia|]. split; [apply small_i32; lia|].
    destruct (in_functions items n p Gen Pok f I0) as (q & Q & ->). cbn [placed_function f_locals f_args] in *.
    assert (K : forall l, Forall (fun i => in_i32 (i_offset i) = true) (map (ident_of (g_slots items n)) l)).
    { intros l. apply Forall_forall. intros i Ii. apply in_map_iff in Ii. destruct Ii as (d & <- & _). cbn [ident_of i_offset].
      apply (Rm items n p p Gen Pok Fit (bound_self p)). }
    split; [apply K|]. split; [apply K|]. unfold count_ok. split; lia.
  Qed.
  Lemma made_lines : Forall (fun x => in_i32 (fst x) = true) (p_lines p) /\ lines_sorted (p_lines p) /\ count_ok (p_lines p).
  Proof.
    assert (R : Forall (fun x => 0 <= fst x < zlen (p_code p)) (p_lines p)).
    { apply Forall_forall. intros [a l] I0. rewrite (generate_lines items n p Gen) in I0. cbn [fst].
      assert (Lw : forall q, In q (g_layout items n (sys_index p)) -> Forall (fun x => ins_wf (linked_ins (fun f => address p (fd_name f)) x)) (g_code_of items n (sys_index p) q)).
      { intros q Q. exact (proj2 (place_code_at items n p p Gen Pok Fit (bound_self p) q Q)). }
      destruct (layout_marks _ _ _ _ _ _ _ _ 0 0 Lw I0) as (q & lend & Q & M).
      destruct (place_code items n p p Gen Pok (bound_self p) q Q) as (pre & suf & E & B). rewrite E, !zlen_app, zlen_code_of.
      pose proof (marks_range (item_notes (g_sizes items n) (RFunc (pl_f q) (pl_args q) (pl_body q) lend)) (pl_base q)) as MR. rewrite Forall_forall in MR.
      specialize (MR _ M). cbn [fst] in MR. rewrite <- (clen_span (fun f => address p (fd_name f)) (g_code_of items n (sys_index p) q)) in MR; [|apply Lw; exact Q|apply ops_func].
      pose proof (zlen_nonneg pre). pose proof (zlen_nonneg suf). lia. }
    assert (S0 : lines_sorted (p_lines p)) by (rewrite (generate_lines items n p Gen); apply marks_sorted).
    pose proof (fi_code _ Fit) as C. split; [|split; [exact S0|]].
    - eapply Forall_impl; [|exact R]. cbn beta. intros x K. apply small_i32. lia.
    - unfold count_ok. pose proof (sorted_count _ 0 (zlen (p_code p)) (zlen_nonneg _) S0 R). lia.
  Qed.
End Made.
