(** Running threads: C02, C50 (persistence), C53-C56. *)
From Coq Require Import ZArith List Bool Lia ZifyBool.
From Verif Require Import Base BaseFacts F32 Instr InstrSpec InstrProofs Program VM Gc GcSpec
  Host Demo VmSpec VmFacts RunFacts PropertiesOps.
Import ListNotations.
Open Scope Z_scope.

(** ** C02 The disassembler and the machine agree on instruction lengths *)

(** The disassembler reports [n] consumed bytes at the pc; the machine goes on
    [n] bytes further, or transfers control and uses that address as the return
    address or the not-taken branch ([transfer]). *)
Theorem C02_lengths_agree : forall P H (ops : hops P H) prog s s' text n,
  0 <= pc s ->
  disasm (zskipn (pc s) (p_code prog)) = Ok (text, n) ->
  step_imp ops prog s = Ok (tt, s') ->
  match znth (p_code prog) (pc s) with
  | None => False
  | Some b =>
      match of_opcode b with
      | None => n = 0 /\ t_err (m_cur s') = Some e_bad_opcode /\ t_fin (m_cur s') = true
      | Some i =>
          n = 1 + 4 * operands i /\
          match i with
          | INS_JMP | INS_RET => True
          | INS_TJMP | INS_FJMP =>
              pc s' = pc s + n \/
              exists r, rd32 (zskipn (pc s + 1) (p_code prog)) = Some (pc s', r)
          | INS_CALL | INS_ICALL =>
              (frames s' = frames s /\ pc s' = pc s + n) \/
              (exists f, frames s' = f :: frames s /\ fr_ret f = pc s + n /\ pc s' = fr_callee f)
          | _ => pc s' = pc s + n
          end
      end
  end.
Proof.
  intros P H ops prog s s' text n Np D E.
  destruct (step_inv _ _ _ _ _ E) as (b & s1 & Eb & _ & E1 & ->). rewrite Eb.
  assert (Sk : exists r, zskipn (pc s) (p_code prog) = b :: r).
  { replace (pc s) with (pc s + 0) in Eb by lia. rewrite <- znth_zskipn in Eb by lia.
    destruct (zskipn (pc s) (p_code prog)) as [|c r]; [discriminate|]. cbn in Eb.
    exists r. congruence. }
  destruct Sk as (r & Sk). rewrite Sk in D. cbn [disasm] in D.
  destruct (of_opcode b) as [i|] eqn:Ob.
  - assert (Hn : n = 1 + 4 * operands i).
    { destruct i; try (destruct (rd32 r) as [[v1 p2]|]; [|discriminate D]);
        try (destruct (rd32 p2) as [[v2 p3]|]; [|discriminate D]);
        match type of D with Ok (_, ?k) = Ok (_, n) => assert (k = n) by congruence end; subst n; reflexivity. }
    split; [exact Hn|].
    destruct (do_ins_weak ops prog i _ _ _ E1) as [_ T]. unfold transfer in T.
    unfold pc, frames in *. cbn [m_cur with_cur t_pc t_set_pc t_frs] in *.
    replace (t_pc (m_cur s) + 1 + 4 * operands i) with (t_pc (m_cur s) + n) in T by lia.
    destruct i; exact T.
  - split; [|unfold raise, mod_cur in E1;
      match type of E1 with Ok (_, ?a) = Ok (_, ?b) => assert (a = b) as <- by congruence end; split; reflexivity].
    destruct (rd32 r) as [[v1 p2]|]; [|discriminate D].
    destruct (rd32 p2) as [[v2 p3]|]; [|discriminate D].
    match type of D with Ok (_, ?k) = Ok (_, n) => assert (k = n) by congruence end; subst n; reflexivity.
Qed.

Example C02_example :
  let s := ops_state [Some (true, 8); Some (true, 0); None] in
  exists text n s', disasm (zskipn (pc s) (p_code (ops_prog INS_ADD))) = Ok (text, n) /\
                    step_imp (gc_ops 5) (ops_prog INS_ADD) s = Ok (tt, s').
Proof. do 3 eexists. split; [vm_compute; reflexivity|vm_compute; reflexivity]. Qed.

(** ** C50, continued: only the instructions that store globals change them. *)
Theorem C50_globals_persist : forall P H (ops : hops P H) prog s s' b,
  step_imp ops prog s = Ok (tt, s') ->
  znth (p_code prog) (pc s) = Some b ->
  b <> opcode INS_SETG -> b <> opcode INS_GLOBALS ->
  m_glob s' = m_glob s.
Proof.
  intros P H ops prog s s' b E Eb N1 N2.
  destruct (step_inv _ _ _ _ _ E) as (b' & s1 & Eb' & _ & E1 & ->).
  assert (b' = b) by congruence. subst b'. cbn [with_cur m_glob].
  destruct (of_opcode b) as [i|] eqn:Ob.
  - apply of_opcode_some in Ob. subst b.
    rewrite (do_ins_glob ops prog i _ _ _ E1); [reflexivity|congruence..].
  - unfold raise, mod_cur in E1.
    match type of E1 with Ok (_, ?a) = Ok (_, ?b) => assert (a = b) as <- by congruence end. reflexivity.
Qed.

(** ** C53 Cycle accounting *)

(** [k] instructions have been executed, with a collection before each when the
    heap asks for one. *)
Inductive executed {P H} (ops : hops P H) (prog : program_t) : nat -> mst P H -> mst P H -> Prop :=
| ex_0 : forall s, executed ops prog 0 s s
| ex_S : forall n s s1 s2 s3,
    tick_gc ops s = Ok (tt, s1) -> step_imp ops prog s1 = Ok (tt, s2) ->
    executed ops prog n s2 s3 -> executed ops prog (S n) s s3.

Definition unhalted {P H} (s : mst P H) : mst P H := with_cur s (t_set_hal (m_cur s) false).

Lemma loop_S : forall P H (ops : hops P H) prog n s s',
  resume_loop ops prog (S n) s = Ok (tt, s') ->
  exists s1 s2, tick_gc ops s = Ok (tt, s1) /\ step_imp ops prog s1 = Ok (tt, s2) /\
    ((t_fin (m_cur s2) = true \/ t_hal (m_cur s2) = true) /\ s2 = s' \/
     t_fin (m_cur s2) = false /\ t_hal (m_cur s2) = false /\ resume_loop ops prog n s2 = Ok (tt, s')).
Proof.
  intros P H ops prog n s s' E. cbn [resume_loop] in E.
  apply mbind_ok in E. destruct E as ([] & s1 & E1 & E).
  apply mbind_ok in E. destruct E as ([] & s2 & E2 & E).
  exists s1, s2. split; auto. split; auto.
  unfold mbind, mget in E. destruct (t_fin (m_cur s2)) eqn:F.
  - unfold ret in E. left. split; auto. congruence.
  - destruct (t_hal (m_cur s2)) eqn:Hl.
    + unfold ret in E. left. split; auto. congruence.
    + right. auto.
Qed.

Lemma to_u32_add : forall a b, to_u32 (to_u32 a + b) = to_u32 (a + b).
Proof. intros. unfold to_u32. apply Zplus_mod_idemp_l. Qed.

Lemma loop_executed : forall P H (ops : hops P H) prog n s s',
  resume_loop ops prog n s = Ok (tt, s') ->
  exists k, (k <= n)%nat /\ executed ops prog k s s' /\
    to_u32 (t_cyc (m_cur s')) = to_u32 (t_cyc (m_cur s) + Z.of_nat k) /\
    (k = n \/ t_fin (m_cur s') = true \/ t_hal (m_cur s') = true) /\
    (k = O -> n = O).
Proof.
  intros P H ops prog n. induction n as [|n IH]; intros s s' E.
  - exists O. unfold resume_loop, ret in E. assert (s = s') by congruence. subst s'.
    split; auto. split; [constructor|]. split; [f_equal; lia|]. auto.
  - destruct (loop_S _ _ _ _ _ _ _ E) as (s1 & s2 & E1 & E2 & D).
    assert (C : t_cyc (m_cur s2) = to_u32 (t_cyc (m_cur s) + 1)).
    { rewrite (sf_cyc _ _ _ (step_weak _ _ _ _ _ E2)).
      destruct (tick_facts _ _ _ _ E1) as (_ & _ & (l & Ec) & _). rewrite Ec. reflexivity. }
    destruct D as [[D ->]|(F & Hl & D)].
    + exists 1%nat. split; [lia|]. split; [econstructor; eauto; constructor|]. split; [|split; [tauto|lia]].
      rewrite C. unfold to_u32. rewrite Z.mod_mod by lia. reflexivity.
    + destruct (IH _ _ D) as (k & K & Ex & Cy & St & _).
      exists (S k). split; [lia|]. split; [econstructor; eauto|]. split; [|split; [|lia]].
      * rewrite Cy, C, to_u32_add. f_equal. lia.
      * destruct St as [->|St]; auto.
Qed.

Lemma resume_inv : forall P H (ops : hops P H) prog n s b s',
  t_fin (m_cur s) = false -> resume ops prog n s = Ok (b, s') ->
  resume_loop ops prog n (unhalted s) = Ok (tt, s') /\ b = no_error (m_cur s').
Proof.
  intros P H ops prog n s b s' F E. unfold resume in E. unfold mbind at 1, mget in E. rewrite F in E.
  apply mbind_ok in E. destruct E as ([] & s1 & E1 & E).
  unfold mod_cur in E1. match type of E1 with Ok (_, ?a) = Ok (_, ?b) => assert (a = b) as <- by congruence end.
  apply mbind_ok in E. destruct E as ([] & s2 & E2 & E). unfold mget in E.
  assert (s2 = s') by congruence. subst s2. split; [exact E2|]. congruence.
Qed.

(** resume(n) executes at most [n] instructions, exactly [n] unless the thread
    finishes (an error also finishes it) or halts, and the cycle count goes up
    by the number executed (it is a 32-bit counter). *)
Theorem C53_cycle_accounting : forall P H (ops : hops P H) prog n s b s',
  t_fin (m_cur s) = false -> 0 <= t_cyc (m_cur s) < 2 ^ 32 ->
  resume ops prog n s = Ok (b, s') ->
  exists k, (k <= n)%nat /\ executed ops prog k (unhalted s) s' /\
    t_cyc (m_cur s') = (t_cyc (m_cur s) + Z.of_nat k) mod 2 ^ 32 /\
    (k = n \/ t_fin (m_cur s') = true \/ t_hal (m_cur s') = true).
Proof.
  intros P H ops prog n s b s' F C E. destruct (resume_inv _ _ _ _ _ _ _ _ F E) as [L _].
  destruct (loop_executed _ _ _ _ _ _ _ L) as (k & K & Ex & Cy & St & _).
  exists k. split; auto. split; auto. split; auto.
  change (2 ^ 32) with 4294967296 in *.
  change (t_cyc (m_cur (unhalted s))) with (t_cyc (m_cur s)) in Cy. unfold to_u32 in Cy.
  remember (unhalted s) as u eqn:Eu. destruct Ex as [s0|m s0 s1 s2 s3 T1 T2 T3].
  - subst s0. change (t_cyc (m_cur (unhalted s))) with (t_cyc (m_cur s)).
    rewrite Z.add_0_r. rewrite Z.mod_small by lia. reflexivity.
  - rewrite <- Cy. symmetry. apply Z.mod_small.
    assert (G : forall n s s', executed ops prog n s s' -> 0 <= t_cyc (m_cur s) < 4294967296 ->
                  0 <= t_cyc (m_cur s') < 4294967296).
    { clear. induction 1 as [|n s s1 s2 s3 T1 T2 T3 IH]; auto. intros _. apply IH.
      rewrite (sf_cyc _ _ _ (step_weak _ _ _ _ _ T2)). apply Z.mod_pos_bound. lia. }
    apply (G _ _ _ T3). rewrite (sf_cyc _ _ _ (step_weak _ _ _ _ _ T2)). apply Z.mod_pos_bound. lia.
Qed.

(** The first ten instructions of the demonstration program. *)
Definition demo_state : mst ptr heap :=
  Mst empty_heap [] world0 [] (prepared fresh_thread demo_main []) [].
Example C53_example :
  t_fin (m_cur demo_state) = false /\
  match resume (gc_ops 5) demo_prog 10 demo_state with
  | Ok (b, s') => b = true /\ t_cyc (m_cur s') = 10 /\ t_fin (m_cur s') = false
  | _ => False end /\
  match resume (gc_ops 5) demo_prog 100 demo_state with
  | Ok (b, s') => b = true /\ t_cyc (m_cur s') = 16 /\ t_fin (m_cur s') = true
  | _ => False end.
Proof. vm_compute. repeat split. Qed.

(** ** C54 Time slicing is invisible *)
Theorem C54_slicing : forall P H (ops : hops P H) prog a b s r s1,
  t_fin (m_cur s) = false ->
  resume ops prog a s = Ok (r, s1) ->
  t_fin (m_cur s1) = false -> t_hal (m_cur s1) = false ->
  resume ops prog b s1 = resume ops prog (a + b) s.
Proof.
  intros P H ops prog a b s r s1 F E F1 H1.
  destruct (resume_inv _ _ _ _ _ _ _ _ F E) as [L _].
  assert (G : forall a s s1, resume_loop ops prog a s = Ok (tt, s1) ->
    t_fin (m_cur s1) = false -> t_hal (m_cur s1) = false ->
    resume_loop ops prog (a + b) s = resume_loop ops prog b s1).
  { clear. induction a as [|a IH]; intros s s1 E F1 H1.
    - unfold resume_loop, ret in E. assert (s = s1) by congruence. subst. reflexivity.
    - destruct (loop_S _ _ _ _ _ _ _ E) as (s2 & s3 & E1 & E2 & D).
      destruct D as [[[D|D] ->]|(F & Hl & D)]; [congruence|congruence|].
      cbn [Nat.add resume_loop]. unfold mbind at 1. rewrite E1. unfold mbind at 1. rewrite E2.
      unfold mbind, mget. rewrite F, Hl. now apply IH. }
  unfold resume, mbind, mget, mod_cur. rewrite F, F1.
  fold (unhalted s) (unhalted s1). change (Mst (m_heap s) _ _ _ _ _) with (unhalted s).
  change (Mst (m_heap s1) _ _ _ _ _) with (unhalted s1).
  rewrite (G _ _ _ L) by auto.
  assert (U : unhalted s1 = s1).
  { destruct s1 as [h g w pre [] post]. cbn in H1. subst. reflexivity. }
  rewrite U. reflexivity.
Qed.
(** So two slicings of the same number of cycles give the same state. *)
Corollary C54_any_two_slicings : forall P H (ops : hops P H) prog a b a' b' s r s1 r' s1',
  t_fin (m_cur s) = false -> (a + b = a' + b')%nat ->
  resume ops prog a s = Ok (r, s1) -> t_fin (m_cur s1) = false -> t_hal (m_cur s1) = false ->
  resume ops prog a' s = Ok (r', s1') -> t_fin (m_cur s1') = false -> t_hal (m_cur s1') = false ->
  resume ops prog b s1 = resume ops prog b' s1'.
Proof.
  intros P H ops prog a b a' b' s r s1 r' s1' F Q E F1 H1 E' F1' H1'.
  rewrite (C54_slicing _ _ _ _ _ b _ _ _ F E F1 H1), (C54_slicing _ _ _ _ _ b' _ _ _ F E' F1' H1').
  now rewrite Q.
Qed.
Example C54_example :
  match resume (gc_ops 5) demo_prog 10 demo_state with
  | Ok (b, s') => t_fin (m_cur s') = false /\ t_hal (m_cur s') = false
  | _ => False end.
Proof. vm_compute. split; reflexivity. Qed.

(** ** C55 Finished and failed threads never run again *)

(** resume, step_inst and step_line on a finished thread return false and leave
    everything as it was. *)
Theorem C55_finished_stays : forall P H (ops : hops P H) prog s,
  t_fin (m_cur s) = true ->
  (forall n, resume ops prog n s = Ok (false, s)) /\
  step_inst ops prog s = Ok (false, s) /\
  (forall fuel, step_line ops prog fuel s = Ok (false, s)).
Proof.
  intros P H ops prog s F. unfold resume, step_inst, step_line, mbind, mget. rewrite F. auto.
Qed.

(** A thread that has an error is finished, in every state that any sequence of
    API calls can reach. *)
Definition failed_finished {P} (t : thread P) : Prop := t_err t <> None -> t_fin t = true.

Lemma ff_restacked : forall P (l l' : list (thread P)), Forall2 restacked l l' ->
  Forall failed_finished l -> Forall failed_finished l'.
Proof.
  induction 1 as [|t t' l l' (x & ->) _ IH]; intros F; auto. inversion F; subst. constructor; auto.
Qed.
Lemma ff_newborn : forall P (l : list (thread P)), Forall newborn l -> Forall failed_finished l.
Proof.
  intros P l F. eapply Forall_impl; [|exact F]. intros t (f & args & ->). intros X. now destruct X.
Qed.

Definition ff_state {P H} (s : mst P H) : Prop :=
  Forall failed_finished (m_pre s) /\ failed_finished (m_cur s) /\ Forall failed_finished (m_post s).

Lemma ff_tick : forall P H (ops : hops P H) s u s', tick_gc ops s = Ok (u, s') ->
  ff_state s -> ff_state s' /\ t_err (m_cur s') = t_err (m_cur s).
Proof.
  intros P H ops s u s' E (F1 & F2 & F3). destruct (tick_facts _ _ _ _ E) as (_ & A & (l & B) & C).
  split; [split; [|split]|].
  - eapply ff_restacked; eauto.
  - rewrite B. exact F2.
  - eapply ff_restacked; eauto.
  - rewrite B. reflexivity.
Qed.
Lemma ff_step : forall P H (ops : hops P H) prog s u s', step_imp ops prog s = Ok (u, s') ->
  ff_state s -> t_err (m_cur s) = None -> ff_state s'.
Proof.
  intros P H ops prog s u s' E (F1 & F2 & F3) N.
  destruct (step_weak _ _ _ _ _ E) as [_ _ _ Po (ns & Pr & Nb) Er].
  split; [|split].
  - rewrite Pr. apply Forall_app. split; auto. now apply ff_newborn.
  - intros X. destruct (Er N); congruence.
  - now rewrite Po.
Qed.
Lemma ff_resume : forall P H (ops : hops P H) prog n s b s', resume ops prog n s = Ok (b, s') ->
  ff_state s -> ff_state s'.
Proof.
  intros P H ops prog n s b s' E F. destruct (t_fin (m_cur s)) eqn:Fi.
  { rewrite (proj1 (C55_finished_stays _ _ ops prog s Fi)) in E. congruence. }
  destruct (resume_inv _ _ _ _ _ _ _ _ Fi E) as [L _]. clear E.
  assert (N : t_err (m_cur (unhalted s)) = None).
  { destruct F as (_ & X & _). cbn. destruct (t_err (m_cur s)) eqn:Q; auto.
    unfold failed_finished in X. rewrite X in Fi by congruence. discriminate. }
  assert (F' : ff_state (unhalted s)) by exact F. clear F Fi. revert N F' L.
  generalize (unhalted s). clear s. induction n as [|n IH]; intros s N F L.
  - unfold resume_loop, ret in L. congruence.
  - destruct (loop_S _ _ _ _ _ _ _ L) as (s1 & s2 & E1 & E2 & D).
    destruct (ff_tick _ _ _ _ _ _ E1 F) as [F1 Er].
    pose proof (ff_step _ _ _ _ _ _ _ E2 F1 ltac:(congruence)) as F2.
    destruct D as [[_ ->]|(Fi & _ & D)]; auto.
    eapply IH; [|exact F2|exact D]. destruct F2 as (_ & X & _).
    destruct (t_err (m_cur s2)) eqn:Q; auto.
    unfold failed_finished in X. rewrite X in Fi by congruence. discriminate.
Qed.

Definition ff_vm {P H} (v : vm P H) : Prop := Forall failed_finished (vm_threads v).

Lemma ff_join : forall P H (s : mst P H), ff_state s -> ff_vm (join s).
Proof. intros P H s (A & B & C). unfold ff_vm, join; cbn. apply Forall_app. split; auto. Qed.

Lemma ff_round : forall P H (ops : hops P H) prog c n h g w pre post b v,
  vm_round ops prog n c h g w pre post = Ok (b, v) ->
  Forall failed_finished pre -> Forall failed_finished post -> ff_vm v.
Proof.
  intros P H ops prog c. induction n as [|n IH]; intros h g w pre post b v E Fp Fq.
  - destruct post; [|discriminate]. cbn in E. assert (v = Vm h g w pre) by congruence. subst. exact Fp.
  - destruct post as [|t post]; cbn [vm_round] in E.
    { assert (v = Vm h g w pre) by congruence. subst. exact Fp. }
    inversion Fq; subst. destruct (negb (t_waits t =? 0)).
    { apply bind_ok in E. destruct E as (k & _ & E). eapply IH; eauto. apply Forall_app. split; auto. }
    destruct (t_fin t || negb (no_error t)).
    { eapply IH; eauto. }
    destruct (resume ops prog c _) as [[ok s]| |] eqn:Er; try discriminate.
    assert (Fs : ff_state s) by (eapply ff_resume; [exact Er|]; split; auto).
    destruct ok.
    + eapply IH; eauto; destruct Fs as (A & B & C); auto. apply Forall_app. auto.
    + destruct (no_error (m_cur s)); [discriminate|]. assert (v = join s) by congruence. subst. now apply ff_join.
Qed.
Lemma ff_vm_resume : forall P H (ops : hops P H) prog n v b v',
  vm_resume ops prog n v = Ok (b, v') -> ff_vm v -> ff_vm v'.
Proof. intros. unfold vm_resume in *. eapply ff_round; eauto. Qed.

Lemma new_thread_inv : forall P H (ops : hops P H) f argv s b s',
  new_thread ops f argv s = Ok (b, s') ->
  m_post s' = m_post s /\ exists ns, m_pre s' = ns ++ m_pre s /\ Forall newborn ns.
Proof.
  intros P H ops f argv s b s' E.
  assert (S : strong 0 s s').
  { refine (resp_new_thread ops strong _ _ _ _ f argv s b s' E).
    - apply strong_refl.
    - apply strong_trans.
    - apply strong_heap.
    - apply strong_add. }
  destruct S. auto.
Qed.
Lemma ff_vm_new_thread : forall P H (ops : hops P H) f argv v b v',
  vm_new_thread ops v f argv = Ok (b, v') -> ff_vm v -> ff_vm v'.
Proof.
  intros P H ops f argv v b v' E F. unfold vm_new_thread in E.
  destruct (new_thread ops f argv _) as [[ok s]| |] eqn:En; try discriminate.
  destruct (new_thread_inv _ _ _ _ _ _ _ _ En) as (Q & ns & Pr & Nb). cbn in Q, Pr. rewrite app_nil_r in Pr.
  match type of E with Ok (_, ?a) = Ok (_, ?b) => assert (a = b) as <- by congruence end.
  unfold ff_vm. cbn. rewrite Q, Pr. apply Forall_app. split; auto. now apply ff_newborn.
Qed.
Lemma ff_collect : forall P H (ops : hops P H) v v', gc_collect_vm ops v = Ok v' -> ff_vm v -> ff_vm v'.
Proof.
  intros P H ops v v' E F. eapply ff_restacked; [|exact F]. apply (gc_collect_vm_facts _ _ _ E).
Qed.
Lemma ff_call_loop : forall P H (ops : hops P H) prog fuel s s',
  call_loop ops prog fuel s = Ok s' -> ff_state s -> ff_state s'.
Proof.
  intros P H ops prog. induction fuel as [|n IH]; intros s s' E F; cbn [call_loop] in E.
  - destruct (_ || _); congruence.
  - destruct (_ || _); [congruence|].
    destruct (resume ops prog _ s) as [[ok s1]| |] eqn:Er; try discriminate.
    pose proof (ff_resume _ _ _ _ _ _ _ _ Er F). destruct ok; [eauto|congruence].
Qed.

Lemma ff_unfinished : forall P H (s : mst P H), ff_state s -> t_fin (m_cur s) = false -> t_err (m_cur s) = None.
Proof.
  intros P H s (_ & X & _) Fi. destruct (t_err (m_cur s)) eqn:Q; auto.
  unfold failed_finished in X. rewrite X in Fi by congruence. discriminate.
Qed.
Lemma ff_step_line : forall P H (ops : hops P H) prog l n s u s', step_line_loop ops prog n l s = Ok (u, s') ->
  ff_state s -> t_fin (m_cur s) = false -> ff_state s'.
Proof.
  intros P H ops prog l n. induction n as [|n IH]; intros s u s' E F Fi; [discriminate|]. cbn [step_line_loop] in E.
  apply mbind_ok in E. destruct E as ([] & s1 & E1 & E).
  pose proof (ff_step _ _ _ _ _ _ _ E1 F (ff_unfinished _ _ _ F Fi)) as F1.
  unfold mbind, mget, lift, assert_, ret in E. destruct (t_fin (m_cur s1)) eqn:Fi1; [congruence|].
  destruct (t_frs (m_cur s1)); [discriminate|]. destruct (no_error (m_cur s1)); [|discriminate].
  destruct (line_eqb l (source_line prog (m_cur s1))); [eapply IH; eauto|congruence].
Qed.
Lemma ff_debug : forall P H (ops : hops P H) prog fuel d s b s', debug_step prog ops fuel d s = Ok (b, s') ->
  ff_state s -> ff_state s'.
Proof.
  intros P H ops prog fuel d s b s' E F.
  assert (M : forall f, (forall t : thread P, t_err (f t) = t_err t /\ t_fin (f t) = t_fin t) ->
    mbind (mod_cur f) (fun _ => ret true) s = Ok (b, s') -> ff_state s').
  { intros f Hf X. unfold mbind, mod_cur, ret in X.
    match type of X with Ok (_, ?a) = Ok (_, ?c) => assert (a = c) as <- by congruence end.
    destruct F as (F1 & F2 & F3). split; [exact F1|]. split; [|exact F3]. unfold failed_finished in *. cbn [m_cur].
    destruct (Hf (m_cur s)) as [-> ->]. exact F2. }
  destruct d as [n| | |l|l| |]; cbn [debug_step] in E.
  - eapply ff_resume; eauto.
  - unfold step_inst in E. unfold mbind at 1, mget in E. destruct (t_fin (m_cur s)) eqn:Fi; [unfold ret in E; congruence|].
    apply mbind_ok in E. destruct E as ([] & s1 & E1 & E). apply mbind_ok in E. destruct E as ([] & s2 & E2 & E).
    assert (s2 = s') by congruence. subst s2. destruct (gc_collect_facts _ _ _ _ E1) as (_ & A & (k & B) & C).
    assert (F1 : ff_state s1).
    { destruct F as (F1 & F2 & F3). split; [eapply ff_restacked; eauto|]. split; [rewrite B; exact F2|eapply ff_restacked; eauto]. }
    eapply ff_step; [exact E2|exact F1|]. apply ff_unfinished; [exact F1|]. rewrite B. exact Fi.
  - unfold step_line in E. unfold mbind at 1, mget in E. destruct (t_fin (m_cur s)) eqn:Fi; [unfold ret in E; congruence|].
    apply mbind_ok in E. destruct E as ([] & s1 & E1 & E). assert (s1 = s') by congruence. subst s1. eapply ff_step_line; eauto.
  - eapply M; [|exact E]. auto.
  - eapply M; [|exact E]. auto.
  - eapply M; [|exact E]. auto.
  - eapply M; [|exact E]. auto.
Qed.
Lemma ff_split : forall P H i (v : vm P H) s, split i v = Ok s -> ff_vm v -> ff_state s.
Proof.
  intros P H i v s E F. unfold split in E. unfold ff_vm in F. rewrite <- (firstn_skipn i (vm_threads v)) in F. apply Forall_app in F. destruct F as [F1 F2].
  destruct (skipn i (vm_threads v)) as [|t ts]; [discriminate|].
  match type of E with Ok ?a = Ok ?b => assert (a = b) as <- by congruence end. split; [exact F1|]. split; [exact (Forall_inv F2)|exact (Forall_inv_tail F2)].
Qed.

Lemma ff_host_step : forall P H (ops : hops P H) prog fuel op v x v',
  host_step prog ops fuel op v = Ok (x, v') -> ff_vm v -> ff_vm v'.
Proof.
  intros P H ops prog fuel op v x v' E F. destruct op; cbn [host_step] in E.
  - apply bind_ok in E. destruct E as ([h ps] & _ & E). apply bind_ok in E. destruct E as ([ok v1] & E1 & E).
    assert (v1 = v') by congruence. subst. eapply ff_vm_new_thread; [exact E1|exact F].
  - apply bind_ok in E. destruct E as ([ok v1] & E1 & E). assert (v1 = v') by congruence. subst.
    eapply ff_vm_resume; eauto.
  - apply bind_ok in E. destruct E as ([ok v1] & E1 & E). assert (v1 = v') by congruence. subst.
    unfold call_init in E1. destruct (function_find _ _) as [f|]; [|congruence].
    apply bind_ok in E1. destruct E1 as ([ok1 v1] & E1 & E2).
    pose proof (ff_vm_new_thread _ _ _ _ _ _ _ _ E1 F) as F1.
    destruct ok1; [|congruence]. eapply ff_vm_resume; eauto.
  - apply bind_ok in E. destruct E as ([h ps] & _ & E). apply bind_ok in E. destruct E as ([[[ok p] e] v1] & E1 & E).
    assert (v1 = v') by congruence. subst. unfold call_once in E1.
    apply bind_ok in E1. destruct E1 as ([ok1 v1] & E1 & E2).
    assert (F1 : ff_vm v1) by (eapply ff_vm_new_thread; [exact E1|exact F]).
    apply bind_ok in E2. destruct E2 as (v2 & E2 & E3).
    pose proof (ff_collect _ _ _ _ _ E2 F1) as F2.
    destruct ok1; [|discriminate]. cbn [negb] in E3.
    apply bind_ok in E3. destruct E3 as (s & E3 & E4). apply bind_ok in E4. destruct E4 as (s' & E4 & E5).
    assert (Fs : ff_state s).
    { unfold split in E3. cbn [skipn firstn] in E3. unfold ff_vm in F2. destruct (vm_threads v2) as [|t ts]; [discriminate|].
      assert (Mst (vm_heap v2) (vm_glob v2) (vm_world v2) [] t ts = s) as <- by congruence.
      inversion F2; subst. split; auto. cbn. constructor. }
    pose proof (ff_call_loop _ _ _ _ _ _ _ E4 Fs) as Fs'.
    destruct (t_err (m_cur s')).
    + assert (join s' = v') as <- by congruence. now apply ff_join.
    + apply bind_ok in E5. destruct E5 as (p' & _ & E5).
      assert (join s' = v') as <- by congruence. now apply ff_join.
  - apply bind_ok in E. destruct E as (v1 & E1 & E). assert (v1 = v') by congruence. subst.
    eapply ff_collect; eauto.
  - destruct (split i v) as [s| |] eqn:Es; [|congruence|congruence].
    apply bind_ok in E. destruct E as ([ok s'] & E1 & E). assert (join s' = v') as <- by congruence.
    apply ff_join. eapply ff_debug; [exact E1|]. eapply ff_split; eauto.
Qed.

Theorem C55_failed_is_finished : forall prog fuel nglob w l xs v,
  host_gc prog fuel l (vm_start nglob w) = Ok (xs, v) ->
  forall t, In t (vm_threads v) -> t_err t <> None -> t_fin t = true.
Proof.
  intros prog fuel nglob w l xs v E t Hin.
  assert (F : ff_vm v); [|unfold ff_vm in F; rewrite Forall_forall in F; now apply F].
  assert (F0 : ff_vm (vm_start nglob w)) by constructor.
  unfold host_gc in E. revert E F0. generalize (vm_start nglob w). revert xs.
  induction l as [|[c op] l IH]; intros xs v0 E F0; cbn [map host_run fst snd] in E.
  - congruence.
  - apply bind_ok in E. destruct E as ([x v1] & E1 & E).
    apply bind_ok in E. destruct E as ([ys v2] & E2 & E). assert (v2 = v) by congruence. subst.
    eapply IH; eauto. eapply ff_host_step; eauto.
Qed.
Example C55_example :
  let bad := Prog [] [] [demo_main] (asm [I1 INS_NEW_INT 1; I1 INS_NEW_INT 0; I0 INS_DIV]) [] [] in
  match host_gc bad 3 (map (pair cfg_always) [HThread demo_main []; HResume 10]) (vm_start 0 world0) with
  | Ok (xs, v) => xs = [SeenFlag true; SeenFlag false] /\
                  map (fun t => (t_err t, t_fin t)) (vm_threads v) = [(Some e_bad_divide_by_zero, true)]
  | _ => False
  end.
Proof. vm_compute. split; reflexivity. Qed.

(** ** C56 Breakpoints *)
Lemma line_eqb_eq : forall a b, line_eqb a b = true <-> a = b.
Proof.
  intros [f1 l1] [f2 l2]. unfold line_eqb. cbn. split.
  - intros E. apply andb_prop in E. f_equal; lia.
  - intros E. injection E as -> ->. now rewrite !Z.eqb_refl.
Qed.

(** The execution moved from one source line onto a line with a breakpoint. *)
Definition arrives {P H} (prog : program_t) (s s' : mst P H) : Prop :=
  In (line_now prog s') (t_bps (m_cur s)) /\ line_now prog s' <> line_now prog s.

(** One instruction halts the thread exactly when it arrives at a breakpoint
    (compared with the line remembered by the previous instruction). *)
Theorem C56_step : forall P H (ops : hops P H) prog s s',
  no_wait prog -> t_hal (m_cur s) = false ->
  step_imp ops prog s = Ok (tt, s') ->
  (t_hal (m_cur s') = true <->
   In (line_now prog s') (t_bps (m_cur s)) /\ line_now prog s' <> t_last (m_cur s)) /\
  (t_bps (m_cur s) <> [] -> t_last (m_cur s') = line_now prog s') /\
  t_bps (m_cur s') = t_bps (m_cur s).
Proof.
  intros P H ops prog s s' Nw Hl E.
  pose proof (step_weak _ _ _ _ _ E) as [_ Bp La _ _ _]. split; [|split; auto].
  rewrite (step_hal _ _ _ _ _ _ _ Nw E), Hl. cbn [orb]. unfold bp_hit.
  assert (Ex : existsb (line_eqb (line_now prog s')) (t_bps (m_cur s)) = true <-> In (line_now prog s') (t_bps (m_cur s))).
  { rewrite existsb_exists. split.
    - intros (x & I & Q). apply line_eqb_eq in Q. now subst.
    - intros I. exists (line_now prog s'). split; auto. now apply line_eqb_eq. }
  destruct (t_bps (m_cur s)) as [|b bs]; [split; [discriminate|intros [[] _]]|].
  rewrite andb_true_iff, Ex, negb_true_iff. split; intros [A B]; split; auto.
  - intros Q. apply line_eqb_eq in Q. congruence.
  - destruct (line_eqb _ _) eqn:Q; auto. apply line_eqb_eq in Q. contradiction.
Qed.

(** A run of [k] instructions, none of which finishes the thread or arrives at a
    breakpoint. *)
Inductive free_run {P H} (ops : hops P H) (prog : program_t) : nat -> mst P H -> mst P H -> Prop :=
| free_0 : forall s, free_run ops prog 0 s s
| free_S : forall n s s1 s2,
    executed ops prog 1 s s1 -> ~ arrives prog s s1 -> t_fin (m_cur s1) = false ->
    free_run ops prog n s1 s2 -> free_run ops prog (S n) s s2.

(** resume(n) on a thread with breakpoints that stands at a line it has
    remembered: it runs free for all [n] instructions, or it stops right after
    the first instruction that arrives at a breakpoint or finishes the
    thread. *)
Theorem C56_resume_stops : forall P H (ops : hops P H) prog n s b s',
  no_wait prog -> t_fin (m_cur s) = false ->
  t_bps (m_cur s) <> [] -> t_last (m_cur s) = line_now prog s ->
  resume ops prog n s = Ok (b, s') ->
  free_run ops prog n (unhalted s) s' \/
  exists k s1, (k < n)%nat /\ free_run ops prog k (unhalted s) s1 /\ executed ops prog 1 s1 s' /\
    (arrives prog s1 s' \/ t_fin (m_cur s') = true) /\
    (t_hal (m_cur s') = true <-> arrives prog s1 s').
Proof.
  intros P H ops prog n s b s' Nw F Bp La E.
  destruct (resume_inv _ _ _ _ _ _ _ _ F E) as [L _]. clear E b.
  assert (Hl : t_hal (m_cur (unhalted s)) = false) by reflexivity.
  assert (Bp' : t_bps (m_cur (unhalted s)) <> []) by exact Bp.
  assert (La' : t_last (m_cur (unhalted s)) = line_now prog (unhalted s)) by exact La.
  clear F Bp La. revert Hl Bp' La' L. generalize (unhalted s). clear s.
  induction n as [|n IH]; intros s Hl Bp La L.
  - left. unfold resume_loop, ret in L. assert (s = s') by congruence. subst. constructor.
  - destruct (loop_S _ _ _ _ _ _ _ L) as (s1 & s2 & E1 & E2 & D).
    assert (X : executed ops prog 1 s s2) by (econstructor; eauto; constructor).
    assert (T : t_hal (m_cur s1) = t_hal (m_cur s) /\ t_bps (m_cur s1) = t_bps (m_cur s) /\
                t_last (m_cur s1) = t_last (m_cur s) /\ line_now prog s1 = line_now prog s).
    { destruct (tick_facts _ _ _ _ E1) as (_ & _ & (l & Ec) & _). unfold line_now, pc. rewrite Ec. cbn. auto. }
    destruct T as (T1 & T2 & T3 & T4).
    assert (Hl1 : t_hal (m_cur s1) = false) by congruence.
    destruct (C56_step _ _ _ _ _ _ Nw Hl1 E2) as (S1 & S2 & S3).
    assert (A : t_hal (m_cur s2) = true <-> arrives prog s s2).
    { unfold arrives. rewrite S1, T2, T3, La. tauto. }
    destruct D as [[D ->]|(Fi & Hh & D)].
    + right. exists O, s. split; [lia|]. split; [constructor|]. split; [exact X|]. split; [|exact A].
      destruct D as [D|D]; auto. left. now apply A.
    + assert (NA : ~ arrives prog s s2) by (rewrite <- A; congruence).
      destruct (IH s2 Hh) as [Fr|(k & s3 & K & Fr & Ex & St)]; auto.
      * rewrite S3, T2. exact Bp.
      * apply S2. rewrite T2. exact Bp.
      * left. econstructor; eauto.
      * right. exists (S k), s3. split; [lia|]. split; [econstructor; eauto|]. split; auto.
Qed.

(** Without breakpoints, and without syscalls that halt, it never stops. *)
Theorem C56_no_breakpoints : forall P H (ops : hops P H) prog n s b s',
  no_wait prog -> t_fin (m_cur s) = false -> t_bps (m_cur s) = [] ->
  resume ops prog n s = Ok (b, s') ->
  t_fin (m_cur s') = true \/ (t_fin (m_cur s') = false /\ free_run ops prog n (unhalted s) s').
Proof.
  intros P H ops prog n s b s' Nw F Bp E.
  destruct (resume_inv _ _ _ _ _ _ _ _ F E) as [L _]. clear E b.
  assert (Hl : t_hal (m_cur (unhalted s)) = false) by reflexivity.
  assert (Bp' : t_bps (m_cur (unhalted s)) = []) by exact Bp.
  assert (F' : t_fin (m_cur (unhalted s)) = false) by exact F.
  clear F Bp. revert Hl Bp' F' L. generalize (unhalted s). clear s.
  induction n as [|n IH]; intros s Hl Bp F L.
  - right. unfold resume_loop, ret in L. assert (s = s') by congruence. subst. split; auto. constructor.
  - destruct (loop_S _ _ _ _ _ _ _ L) as (s1 & s2 & E1 & E2 & D).
    assert (X : executed ops prog 1 s s2) by (econstructor; eauto; constructor).
    destruct (tick_facts _ _ _ _ E1) as (_ & _ & (l & Ec) & _).
    assert (T1 : t_hal (m_cur s1) = false) by (rewrite Ec; exact Hl).
    assert (T2 : t_bps (m_cur s1) = []) by (rewrite Ec; exact Bp).
    destruct (C56_step _ _ _ _ _ _ Nw T1 E2) as (S1 & S2 & S3). rewrite T2 in *.
    assert (Hh : t_hal (m_cur s2) = false).
    { destruct (t_hal (m_cur s2)); auto. destruct S1 as [S1 _]. destruct (S1 eq_refl) as [[] _]. }
    destruct D as [[[D|D] ->]|(Fi & _ & D)]; [auto|congruence|].
    destruct (IH s2 Hh) as [Fr|[Fr1 Fr]]; auto. right. split; auto. econstructor; eauto.
    unfold arrives. rewrite Bp. intros [[] _].
Qed.

(** A program of three lines with a breakpoint on the second. *)
Definition bp_prog : program_t :=
  Prog [] [] [demo_main] (asm [I0 INS_NEW_NONE; I0 INS_NEW_NONE; I0 INS_NEW_NONE; I0 INS_NEW_NONE; I1 INS_RET 0])
       [(0, Line 0 1); (2, Line 0 2); (3, Line 0 3)] [].
Definition bp_state : mst ptr heap :=
  with_cur demo_state (t_set_last (breakpoint_add (m_cur demo_state) (Line 0 2)) (Line 0 1)).
Example C56_example :
  no_wait bp_prog /\ t_fin (m_cur bp_state) = false /\ t_bps (m_cur bp_state) <> [] /\
  t_last (m_cur bp_state) = line_now bp_prog bp_state /\
  match resume (gc_ops 5) bp_prog 10 bp_state with
  | Ok (b, s') => t_cyc (m_cur s') = 2 /\ line_now bp_prog s' = Line 0 2 /\ t_hal (m_cur s') = true
  | _ => False
  end.
Proof.
  split; [intros n nm E; cbn in E; discriminate|]. split; [reflexivity|]. split; [discriminate|].
  split; [vm_compute; reflexivity|]. vm_compute. repeat split.
Qed.

Print Assumptions C02_lengths_agree.
Print Assumptions C50_globals_persist.
Print Assumptions C53_cycle_accounting.
Print Assumptions C54_slicing.
Print Assumptions C54_any_two_slicings.
Print Assumptions C55_finished_stays.
Print Assumptions C55_failed_is_finished.
Print Assumptions C56_step.
Print Assumptions C56_resume_stops.
Print Assumptions C56_no_breakpoints.
