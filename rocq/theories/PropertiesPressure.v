(** C84: when the machine collects by itself, and what room that leaves.

    A "cycle" of a running thread is one instruction together with whatever the
    machine does before it. *)
From Coq Require Import ZArith List Bool Lia ZifyBool.
From Verif Require Import Base BaseFacts Instr Program VM Gc GcProofs GcSpec
  PropertiesGc VmSpec VmFacts PropertiesRun.
Import ListNotations.
Open Scope Z_scope.

(** The arena that allocations are taken from has more than three quarters, in
    whole percents rounded down, of its bytes in use. *)
Definition crowded (h : heap) : Prop := 76 * arena_size <= 100 * g_head h (sp_to h).

Lemma should_crowded : forall h, should_collect arena_size h = true <-> crowded h.
Proof.
  intros h. unfold should_collect, crowded. rewrite Z.ltb_lt.
  set (x := g_head h (sp_to h)). unfold arena_size.
  pose proof (Z.div_mod (x * 100) 1048576 ltac:(lia)).
  pose proof (Z.mod_pos_bound (x * 100) 1048576 ltac:(lia)). lia.
Qed.

Lemma resume_one : forall P H (ops : hops P H) prog s,
  t_fin (m_cur s) = false ->
  resume ops prog 1 s =
  bind (tick_gc ops (unhalted s)) (fun '(_, s1) =>
  bind (step_imp ops prog s1) (fun '(_, s2) => Ok (no_error (m_cur s2), s2))).
Proof.
  intros P H ops prog s F. unfold resume, mget. cbn [mbind]. unfold mbind at 1. rewrite F.
  unfold mbind at 1, mod_cur. cbn [resume_loop].
  unfold unhalted, with_cur, mbind, mget, ret, bind. destruct (tick_gc ops _) as [[[] s1]| |]; auto.
  destruct (step_imp ops prog s1) as [[[] s2]| |]; auto.
  destruct (t_fin (m_cur s2)); auto. destruct (t_hal (m_cur s2)); auto.
Qed.

(** Not crowded: the cycle is the instruction and nothing else. *)
Theorem C84_no_early_collection : forall fuel prog s,
  t_fin (m_cur s) = false -> ~ crowded (m_heap s) ->
  resume (gc_ops fuel) prog 1 s =
  bind (step_imp (gc_ops fuel) prog (unhalted s))
       (fun '(_, s') => Ok (no_error (m_cur s'), s')).
Proof.
  intros fuel prog s F N. rewrite resume_one by auto. unfold tick_gc.
  change (m_heap (unhalted s)) with (m_heap s). cbn [gc_ops gc_ops_with h_should].
  destruct (should_collect arena_size (m_heap s)) eqn:Q; [|reflexivity].
  apply should_crowded in Q. contradiction.
Qed.
Print Assumptions C84_no_early_collection.

(** Crowded: the cycle is what the host gets by collecting and running the same
    thread for one cycle that does not collect. *)
Theorem C84_collects_when_crowded : forall fuel prog s,
  t_fin (m_cur s) = false -> crowded (m_heap s) ->
  resume (gc_ops fuel) prog 1 s =
  bind (gc_collect_vm (gc_ops fuel) (join (unhalted s))) (fun v =>
  bind (split (List.length (m_pre s)) v) (fun s1 =>
  bind (step_imp (gc_ops fuel) prog s1) (fun '(_, s2) => Ok (no_error (m_cur s2), s2)))).
Proof.
  intros fuel prog s F N. rewrite resume_one by auto. unfold tick_gc.
  change (m_heap (unhalted s)) with (m_heap s). cbn [gc_ops gc_ops_with h_should].
  apply should_crowded in N. rewrite N. unfold gc_collect.
  change (m_pre (unhalted s)) with (m_pre s). unfold bind.
  destruct (gc_collect_vm _ (join (unhalted s))) as [v| |]; auto.
  destruct (split (List.length (m_pre s)) v); auto.
Qed.
Print Assumptions C84_collects_when_crowded.

Lemma collect_empties : forall cap fuel h rs h' rs',
  collect cap fuel h rs = Ok (h', rs') -> g_head h' (sp_to h') = 0.
Proof.
  intros cap fuel h rs h' rs' E. unfold collect in E.
  apply bind_ok in E as ([[h1 f1] r1] & E1 & E). injection E as <- <-.
  unfold flip, sp_to. cbn [g_head g_flip]. rewrite Bool.negb_involutive. now rewrite eqb_reflx.
Qed.

Lemma collect_vm_empties : forall fuel v v',
  gc_collect_vm (gc_ops fuel) v = Ok v' -> g_head (vm_heap v') (sp_to (vm_heap v')) = 0.
Proof.
  intros fuel v v' E. unfold gc_collect_vm in E.
  cbn [gc_ops gc_ops_with h_collect] in E.
  destruct (collect _ _ _ _) as [[h rs]| |] eqn:C; try discriminate.
  destruct rs as [|g rs]; [discriminate|]. injection E as <-. cbn [vm_heap].
  eapply collect_empties; eauto.
Qed.

Lemma tick_not_crowded : forall fuel s s',
  tick_gc (gc_ops fuel) s = Ok (tt, s') -> ~ crowded (m_heap s').
Proof.
  intros fuel s s' E. unfold tick_gc in E. cbn [gc_ops gc_ops_with h_should] in E.
  destruct (should_collect arena_size (m_heap s)) eqn:Q.
  - unfold gc_collect in E.
    destruct (gc_collect_vm _ (join s)) as [v| |] eqn:V; try discriminate.
    apply collect_vm_empties in V. unfold split in E.
    destruct (skipn _ _) as [|t post]; [discriminate|]. injection E as <-.
    unfold crowded. cbn [m_heap]. rewrite V. unfold arena_size. lia.
  - injection E as <-. intros C. apply should_crowded in C. congruence.
Qed.

Definition total_bytes (cs : list cell) : Z := fold_right (fun c n => bytes_of c + n) 0 cs.

Lemma room : forall cs h, g_head h (sp_to h) + total_bytes cs < arena_size ->
  Forall (fun r => r <> None) (alloc_all arena_size h cs).
Proof.
  induction cs as [|c cs IH]; intros h L; cbn [alloc_all]; [constructor|].
  cbn [total_bytes fold_right] in L. fold (total_bytes cs) in L. rewrite bytes_of_size in L.
  assert (0 <= total_bytes cs).
  { clear. induction cs as [|c cs IH]; cbn [total_bytes fold_right]; [lia|].
    fold (total_bytes cs). rewrite bytes_of_size. pose proof (cell_size_pos c). lia. }
  destruct (alloc arena_size h c) as [[h' a]|] eqn:E.
  - apply Forall_cons; [discriminate|]. apply IH.
    destruct (alloc_addr _ _ _ _ _ E) as (_ & Hd & _ & _). rewrite Hd. lia.
  - exfalso. unfold alloc in E. destruct (_ <? _) eqn:Q; [discriminate|]. lia.
Qed.

(** However far a thread has run, the state in which its next instruction starts
    has room: values that together take no more than 24 percent of an arena can
    be allocated one after the other without a refusal. *)
Theorem C84_room_for_each_instruction : forall fuel prog k s s1 s2 cs,
  executed (gc_ops fuel) prog k s s1 ->
  tick_gc (gc_ops fuel) s1 = Ok (tt, s2) ->
  100 * total_bytes cs <= 24 * arena_size ->
  Forall (fun r => r <> None) (alloc_all arena_size (m_heap s2) cs).
Proof.
  intros fuel prog k s s1 s2 cs _ T L. apply tick_not_crowded in T. apply room.
  unfold crowded, arena_size in *. lia.
Qed.
Print Assumptions C84_room_for_each_instruction.

(** The boundary: at 796917 bytes nothing happens, at 796918 there is a
    collection.  A string of 251649 characters is the largest for which there is
    always room. *)
Definition filled (n : Z) : heap := Heap (fun _ => n) (fun _ _ => None) false.
Example C84_boundary :
  ~ crowded (filled 796917) /\ crowded (filled 796918) /\
  100 * total_bytes [KS (SStr (zrepeat 97 251649))] <= 24 * arena_size /\
  ~ 100 * total_bytes [KS (SStr (zrepeat 97 251650))] <= 24 * arena_size.
Proof.
  unfold crowded, filled, total_bytes, arena_size. cbn [g_head sp_to g_flip fold_right bytes_of].
  rewrite !zlen_zrepeat. lia.
Qed.
