(** Proof support: whole runs of a disciplined program on the ideal heap. *)
From Coq Require Import ZArith List Bool Lia ZifyBool String.
From Verif Require Import Base BaseFacts F32 Instr InstrSpec Program VM AbsHeap Host HostProofs VmSpec CgSpec SafeSpec SafeVmSpec SafeStep.
Import ListNotations.
Open Scope Z_scope.
Open Scope list_scope.

Lemma set_stacks_same (ts : list (thread aval)) : set_stacks ts (map (fun t => rev (t_stk t)) ts) = ts.
Proof.
  induction ts as [|t ts IH]; [reflexivity|]. cbn [map set_stacks]. rewrite IH, rev_involutive. destruct t; reflexivity.
Qed.
Lemma abs_collect (v : vm aval aheap) : gc_collect_vm abs_ops v = Ok v.
Proof. unfold gc_collect_vm, roots_of. cbn [abs_ops h_collect]. rewrite set_stacks_same. destruct v; reflexivity. Qed.

Section Run.
  Variable q : program_t.
  Hypothesis V : verified q.
  Variable ops : list hostop.
  Variable v0 : vm aval aheap.

  Definition J (v : vm aval aheap) : Prop := leads q ops v0 v /\ vm_ok q v.
  Definition safe {A} (r : res A) (Q : A -> Prop) : Prop :=
    misused q ops v0 \/ match r with Ok x => Q x | Err _ _ => False | Stuck x => ends_badly q ops v0 x end.

  Lemma safe_bind {A B} (r : res A) (k : A -> res B) Q R : safe r Q -> (forall x, Q x -> safe (k x) R) -> safe (bind r k) R.
  Proof.
    intros [M|S] K; [now left|]. destruct r as [x|e l|x]; cbn [bind]; [now apply K|contradiction|now right].
  Qed.
  Lemma safe_ok {A} (x : A) (Q : A -> Prop) : Q x -> safe (Ok x) Q. Proof. now right. Qed.
  Lemma safe_impl {A} (r : res A) (Q R : A -> Prop) : safe r Q -> (forall x, Q x -> R x) -> safe r R.
  Proof. intros [M|S] K; [now left|right]. destruct r; auto. Qed.

  Lemma idle_ok h g w pre t post n b : vm_ok q (Vm h g w (pre ++ t :: post)) -> vm_ok q (Vm h g w (pre ++ t_set_hal (t_set_waits t n) b :: post)).
  Proof.
    intros [A B C]. cbn [vm_heap vm_glob vm_threads] in *. constructor; cbn [vm_heap vm_glob vm_threads]; auto.
    apply Forall_app in C. destruct C as [C1 C2]. inversion C2 as [|? ? [T1 T2 T3 T4] C3]; subst. apply Forall_app. split; [exact C1|]. constructor; [|exact C3].
    constructor; auto.
  Qed.
  Lemma J_idle h g w pre t post n b : J (Vm h g w (pre ++ t :: post)) -> J (Vm h g w (pre ++ t_set_hal (t_set_waits t n) b :: post)).
  Proof. intros [L O]. split; [now apply leads_idle|now apply idle_ok]. Qed.
  Lemma breaks_ok h g w pre t post l : vm_ok q (Vm h g w (pre ++ t :: post)) -> vm_ok q (Vm h g w (pre ++ t_set_bps t l :: post)).
  Proof.
    intros [A B C]. cbn [vm_heap vm_glob vm_threads] in *. constructor; cbn [vm_heap vm_glob vm_threads]; auto.
    apply Forall_app in C. destruct C as [C1 C2]. inversion C2 as [|? ? [T1 T2 T3 T4] C3]; subst. apply Forall_app. split; [exact C1|]. constructor; [|exact C3].
    constructor; auto.
  Qed.
  Lemma J_drop h g w pre t post : J (Vm h g w (pre ++ t :: post)) -> t_fin t = true -> J (Vm h g w (pre ++ post)).
  Proof.
    intros [L [A B C]] F. split; [eapply leads_drop; eassumption|]. cbn [vm_heap vm_glob vm_threads] in *. constructor; cbn [vm_heap vm_glob vm_threads]; auto.
    apply Forall_app in C. destruct C as [C1 C2]. inversion C2; subst. apply Forall_app. auto.
  Qed.
  Lemma cur_thread s : vm_ok q (join s) -> thread_ok q (zlen (m_heap s)) (m_cur s).
  Proof. intros O. apply (proj1 (join_ok q s)) in O. apply O. Qed.
  Lemma no_error_of s : vm_ok q (join s) -> t_fin (m_cur s) = false -> no_error (m_cur s) = true.
  Proof. intros O F. destruct (cur_thread s O) as [_ T _ _]. unfold no_error. now rewrite (proj1 (T F)). Qed.

  Lemma step_J s : J (join s) -> t_fin (m_cur s) = false -> safe (step_imp abs_ops q s) (fun x => J (join (snd x))).
  Proof.
    intros [L O] F. destruct (step_safe q s V O F) as [M|G]; [left; exists s; auto|right].
    destruct (step_imp abs_ops q s) as [[[] s']|e l|x] eqn:E; cbn [snd]; [|contradiction|].
    - split; [|exact G]. eapply leads_step; eassumption.
    - eapply bad_step; eassumption.
  Qed.
  Lemma loop_J n : forall s, J (join s) -> t_fin (m_cur s) = false -> safe (resume_loop abs_ops q n s) (fun x => J (join (snd x))).
  Proof.
    induction n as [|n IH]; intros s H F; [apply safe_ok; exact H|]. cbn [resume_loop]. unfold mbind at 1, tick_gc. cbn [abs_ops h_should]. unfold mbind at 1.
    pose proof (step_J s H F) as S. destruct S as [M|S]; [now left|]. destruct (step_imp abs_ops q s) as [[[] s']|e l|x]; [|contradiction|now right].
    cbn [snd] in S. unfold mbind, mget. destruct (t_fin (m_cur s')) eqn:F'; [now apply safe_ok|]. destruct (t_hal (m_cur s')); [now apply safe_ok|]. now apply IH.
  Qed.
  Lemma resume_J n s : J (join s) -> t_fin (m_cur s) = false ->
    safe (resume abs_ops q n s) (fun x => J (join (snd x)) /\ fst x = no_error (m_cur (snd x))).
  Proof.
    intros H F. unfold resume. unfold mbind at 1, mget. rewrite F. unfold mbind at 1. cbn [mod_cur]. unfold mbind.
    remember (Mst (m_heap s) (m_glob s) (m_world s) (m_pre s) (t_set_hal (m_cur s) false) (m_post s)) as s1 eqn:E1.
    assert (J1 : J (join s1)).
    { subst s1. unfold join in *. cbn [m_heap m_glob m_world m_pre m_cur m_post]. 
      replace (t_set_hal (m_cur s) false) with (t_set_hal (t_set_waits (m_cur s) (t_waits (m_cur s))) false) by (destruct (m_cur s); reflexivity).
      now apply J_idle. }
    assert (F1 : t_fin (m_cur s1) = false) by (subst s1; exact F).
    destruct (loop_J n s1 J1 F1) as [M|S]; [now left|].
    destruct (resume_loop abs_ops q n s1) as [[u s2]|e l|x]; [|contradiction|now right].
    apply safe_ok. cbn [fst snd] in *. auto.
  Qed.
  Lemma line_loop_J l n : forall s, J (join s) -> t_fin (m_cur s) = false -> safe (step_line_loop abs_ops q n l s) (fun x => J (join (snd x))).
  Proof.
    induction n as [|n IH]; intros s H F; cbn [step_line_loop]; [right; apply bad_bound|]. unfold mbind at 1.
    destruct (step_J s H F) as [M|S]; [now left|]. destruct (step_imp abs_ops q s) as [[[] s']|e k|x]; [|contradiction|now right].
    cbn [snd] in S. unfold mbind, mget, lift, assert_. destruct (t_fin (m_cur s')) eqn:F'; [now apply safe_ok|].
    destruct (cur_thread s' (proj2 S)) as [_ T _ _]. destruct (T F') as [Er Sh]. destruct (shape_in _ _ _ _ Sh) as (fr & rest & _ & _ & _ & Ef & _).
    rewrite Ef. unfold no_error. rewrite Er. destruct (line_eqb l (source_line q (m_cur s'))); [now apply IH|now apply safe_ok].
  Qed.
  Lemma debug_J fuel d s : J (join s) -> safe (debug_step q abs_ops fuel d s) (fun x => J (join (snd x))).
  Proof.
    intros H. destruct (t_fin (m_cur s)) eqn:F.
    { assert (R : forall m : mst aval aheap -> res (bool * mst aval aheap), m s = Ok (false, s) -> safe (m s) (fun x => J (join (snd x)))).
      { intros m ->. now apply safe_ok. }
      destruct d as [n| | |l|l| |]; cbn [debug_step];
        try (apply R; unfold resume, step_inst, step_line, mbind, mget; rewrite F; reflexivity); apply safe_ok; cbn [snd]; unfold join in *; cbn [m_heap m_glob m_world m_pre m_cur m_post].
      - destruct H as [L O]. split; [now apply leads_breaks|now apply breaks_ok].
      - destruct H as [L O]. split; [now apply leads_breaks|now apply breaks_ok].
      - destruct H as [L O]. split; [now apply leads_breaks|now apply breaks_ok].
      - replace (t_set_hal (m_cur s) true) with (t_set_hal (t_set_waits (m_cur s) (t_waits (m_cur s))) true) by (destruct (m_cur s); reflexivity).
        now apply J_idle. }
    destruct d as [n| | |l|l| |]; cbn [debug_step].
    - eapply safe_impl; [apply resume_J; eauto|]. intros x [X _]. exact X.
    - unfold step_inst. unfold mbind at 1, mget. rewrite F. unfold mbind at 1. rewrite Refine.abs_gc_collect. unfold mbind.
      destruct (step_J s H F) as [M|S]; [now left|]. destruct (step_imp abs_ops q s) as [[[] s']|e k|x]; [|contradiction|now right]. now apply safe_ok.
    - unfold step_line. unfold mbind at 1, mget. rewrite F. unfold mbind.
      destruct (line_loop_J (source_line q (m_cur s)) fuel s H F) as [M|S]; [now left|].
      destruct (step_line_loop abs_ops q fuel (source_line q (m_cur s)) s) as [[[] s']|e k|x]; [|contradiction|now right]. now apply safe_ok.
    - apply safe_ok. destruct H as [L O]. split; [now apply leads_breaks|now apply breaks_ok].
    - apply safe_ok. destruct H as [L O]. split; [now apply leads_breaks|now apply breaks_ok].
    - apply safe_ok. destruct H as [L O]. split; [now apply leads_breaks|now apply breaks_ok].
    - apply safe_ok. cbn [snd]. unfold join in *. cbn [m_heap m_glob m_world m_pre m_cur m_post].
      replace (t_set_hal (m_cur s) true) with (t_set_hal (t_set_waits (m_cur s) (t_waits (m_cur s))) true) by (destruct (m_cur s); reflexivity).
      now apply J_idle.
  Qed.
  Lemma round_J cycles : forall n h g w pre post, J (Vm h g w (pre ++ post)) ->
    safe (vm_round abs_ops q n cycles h g w pre post) (fun x => J (snd x)).
  Proof.
    induction n as [|n IH]; intros h g w pre post H; destruct post as [|t post]; cbn [vm_round]; try (apply safe_ok; cbn [snd]; rewrite app_nil_r in H; exact H).
    - right. apply bad_bound.
    - destruct (t_waits t =? 0) eqn:W; cbn [negb].
      + destruct (t_fin t) eqn:F; cbn [orb].
        * apply IH. eapply J_drop; eassumption.
        * set (s := Mst h g w pre t post). assert (Js : J (join s)) by exact H.
          assert (N : no_error t = true) by (apply (no_error_of s); [apply Js|exact F]). rewrite N. cbn [negb].
          destruct (resume_J cycles s Js F) as [M|S]; [now left|]. destruct (resume abs_ops q cycles s) as [[ok s']|e l|x]; [|contradiction|now right].
          cbn [fst snd] in S. destruct S as [J' ->]. destruct (no_error (m_cur s')); [|apply safe_ok; exact J'].
          apply IH. rewrite <- app_assoc. exact J'.
      + unfold chk32. destruct (in_i32 (t_waits t - 1)) eqn:I3; cbn [bind].
        * apply IH. rewrite <- app_assoc. replace (t_set_waits t (t_waits t - 1)) with (t_set_hal (t_set_waits t (t_waits t - 1)) (t_hal t)) by (destruct t; reflexivity).
          apply (J_idle h g w pre t post). exact H.
        * right. eapply bad_wait; [apply H| |exact I3]. cbn [vm_threads]. apply in_elt.
  Qed.
  Lemma resume_vm_J n v : J v -> safe (vm_resume abs_ops q n v) (fun x => J (snd x)).
  Proof. intros H. unfold vm_resume. apply round_J. destruct v; exact H. Qed.

  Lemma new_args_abs h l : new_args abs_ops h l = Ok (h, map arg_val l).
  Proof.
    revert h. induction l as [|[c|] l IH]; intros h; [reflexivity| |]; cbn [new_args map]; cbn [abs_ops h_newS h_null]; cbn [bind]; rewrite IH; reflexivity.
  Qed.
  Lemma args_ok n l : 0 <= n -> Forall (arg_ok q) l -> Forall (val_ok q n) (map arg_val l).
  Proof.
    intros N F. induction F as [|c l O F IH]; cbn [map]; constructor; auto. destruct c as [c|]; [|exact Logic.I]. eapply val_mono; [|exact O]. exact N.
  Qed.
  Lemma copy_args l s : copy_all abs_ops (map arg_val l) s = Ok (map arg_val l, s).
  Proof.
    induction l as [|c l IH]; [reflexivity|]. cbn [map copy_all]. unfold mbind at 1.
    replace (gc_copy abs_ops (arg_val c) s) with (@Ok (aval * mst aval aheap) (arg_val c, s)) by (destruct s, c; reflexivity).
    cbn beta iota. unfold mbind. rewrite IH. reflexivity.
  Qed.
  Lemma started_ok v f args : vm_ok q v -> In f (p_functions q) -> Forall (arg_ok q) args -> zlen args = num_args f ->
    vm_ok q (Vm (vm_heap v) (vm_glob v) (vm_world v) (prepared fresh_thread f (map arg_val args) :: vm_threads v)).
  Proof.
    intros O I A N. assert (Zm : zlen (map arg_val args) = zlen args) by (unfold zlen; now rewrite map_length).
    destruct O as [O1 O2 O3]. constructor; cbn [vm_heap vm_glob vm_threads]; auto.
    constructor; [|exact O3]. unfold prepared. assert (Hn : 0 <= zlen (vm_heap v)) by apply zlen_nonneg. apply th_next.
    - apply Forall_rev. now apply args_ok.
    - cbn [fresh_thread t_frs]. destruct (ve_code _ V _ I) as (size & h & D). pose proof (ve_range _ V _ I) as Rg.
      eapply shape_last; [exact I|exact D|apply starts_here|lia|cbn [fr_sp]; lia|]. cbn [fr_sp].
      pose proof (di_entry _ _ _ _ D). unfold zlen in *. rewrite rev_length. lia.
  Qed.
  Lemma thread_J v f args : J v -> In f (p_functions q) -> Forall (arg_ok q) args -> asked_for q ops f args ->
    safe (vm_new_thread abs_ops v f (map arg_val args)) (fun x => J (snd x) /\
      (fst x = true /\ zlen args = num_args f /\ snd x = Vm (vm_heap v) (vm_glob v) (vm_world v) (prepared fresh_thread f (map arg_val args) :: vm_threads v) \/
       fst x = false /\ zlen args <> num_args f /\ snd x = v)).
  Proof.
    intros [L O] I A K. unfold vm_new_thread, new_thread. assert (Zm : zlen (map arg_val args) = zlen args) by (unfold zlen; now rewrite map_length).
    rewrite Zm. destruct (num_args f =? zlen args) eqn:N.
    - unfold mbind at 1. rewrite copy_args. apply safe_ok. cbn [fst snd m_heap m_glob m_world m_pre m_post app]. split; [|left; split; [reflexivity|split; [lia|reflexivity]]].
      split; [apply leads_start; [destruct v; exact L|exact K|lia]|]. apply (started_ok v f args); auto. lia.
    - apply safe_ok. cbn [fst snd m_heap m_glob m_world m_pre m_post app]. destruct v as [hv gv wv tv]; cbn [vm_heap vm_glob vm_world vm_threads]. split; [split; assumption|]. right. split; [reflexivity|split; [lia|reflexivity]].
  Qed.

  Lemma call_loop_J fuel : forall s, J (join s) -> safe (call_loop abs_ops q fuel s) (fun s' => J (join s') /\ (t_err (m_cur s') = None -> t_fin (m_cur s') = true)).
  Proof.
    assert (Fin : forall s, J (join s) -> t_fin (m_cur s) || negb (no_error (m_cur s)) = true -> t_fin (m_cur s) = true).
    { intros s H E. destruct (t_fin (m_cur s)) eqn:F; [reflexivity|]. rewrite (no_error_of s) in E; [discriminate|apply H|exact F]. }
    induction fuel as [|n IH]; intros s H; cbn [call_loop]; destruct (t_fin (m_cur s) || negb (no_error (m_cur s))) eqn:E;
      try (apply safe_ok; split; [exact H|intros _; now apply Fin]).
    - right. apply bad_bound.
    - apply orb_false_iff in E. destruct E as [F _]. destruct (resume_J (Z.to_nat (128 * 1024)) s H F) as [M|S]; [now left|].
      destruct (resume abs_ops q (Z.to_nat (128 * 1024)) s) as [[ok s']|e l|x]; [|contradiction|now right].
      cbn [fst snd] in S. destruct S as [J' ->]. destruct (no_error (m_cur s')) eqn:N; [now apply IH|].
      apply safe_ok. split; [exact J'|]. unfold no_error in N. intros X. rewrite X in N. discriminate.
  Qed.
  Lemma host_step_J fuel op v : J v -> op_ok q op -> In op ops -> safe (host_step q abs_ops fuel op v) (fun x => J (snd x) /\
    forall b r e, fst x = SeenCall b r e -> shown_ok q r /\ forall e', e = Some e' -> ~ confused e').
  Proof.
    intros H K I. destruct op as [f args|n| |f args| |i d]; cbn [host_step].
    - destruct K as [K1 K2]. rewrite new_args_abs. cbn [bind]. replace (with_heap v (vm_heap v)) with v by (destruct v; reflexivity).
      eapply safe_bind; [apply thread_J; [exact H|exact K1|exact K2|left; exact I]|]. intros [ok v'] [J' _]. apply safe_ok. split; [exact J'|discriminate].
    - eapply safe_bind; [apply resume_vm_J; exact H|]. intros [ok v'] J'. apply safe_ok. split; [exact J'|discriminate].
    - eapply (safe_bind _ _ (fun x => J (snd x))).
      + unfold call_init. destruct (function_find q (bs "@init")) as [f|] eqn:Ff; [|apply safe_ok; exact H].
        assert (If : In f (p_functions q)) by (unfold function_find in Ff; apply find_some in Ff; apply Ff).
        eapply safe_bind; [apply (thread_J v f []); [exact H|exact If|constructor|right; right; auto]|].
        intros [ok v'] [J' _]. destruct ok; [apply resume_vm_J; exact J'|apply safe_ok; exact J'].
      + intros [ok v'] J'. apply safe_ok. split; [exact J'|discriminate].
    - destruct K as [K1 K2]. rewrite new_args_abs. cbn [bind]. replace (with_heap v (vm_heap v)) with v by (destruct v; reflexivity).
      eapply (safe_bind _ _ (fun x => J (snd x) /\ val_ok q (zlen (vm_heap (snd x))) (snd (fst (fst x))) /\ forall e, snd (fst x) = Some e -> ~ confused e)).
      + unfold call_once. eapply safe_bind; [apply thread_J; [exact H|exact K1|exact K2|right; left; exact I]|].
        intros [ok v1] [J1 C]. cbn [fst snd] in *. rewrite abs_collect. cbn [bind]. destruct C as [(-> & N & E)|(-> & N & E)]; cbn [negb]; [|right; eapply bad_count; eassumption].
        subst v1. unfold split. cbn [vm_threads skipn firstn vm_heap vm_glob vm_world bind].
        set (s := Mst (vm_heap v) (vm_glob v) (vm_world v) [] (prepared fresh_thread f (map arg_val args)) (vm_threads v)).
        assert (Js : J (join s)) by exact J1. eapply safe_bind; [apply (call_loop_J fuel s Js)|]. intros s' [J' Fi].
        pose proof (cur_thread s' (proj2 J')) as [T1 T2 T3 T4]. destruct (t_err (m_cur s')) as [e|] eqn:Er.
        * apply safe_ok. cbn [fst snd]. split; [exact J'|]. split; [exact Logic.I|]. intros e' X. inversion X; subst. now apply T4.
        * unfold return_value. rewrite (Fi eq_refl). specialize (T3 (Fi eq_refl) eq_refl). destruct (t_stk (m_cur s')) as [|top rest]; [congruence|]. cbn [bind].
          apply safe_ok. cbn [fst snd]. split; [exact J'|]. split; [|discriminate]. inversion T1; subst. assumption.
      + intros [[[ok p] e] v'] [J' C]. apply safe_ok. cbn [fst snd] in *. split; [exact J'|]. intros b r e' X. inversion X; subst. destruct C as [C1 C2]. split; [|exact C2].
        destruct p as [|[z|z|z|z|z]|a]; cbn in *; try exact Logic.I; try assumption. destruct (znth (vm_heap v') a) as [l|] eqn:Za; [apply zlen_nonneg|].
        destruct (znth_in (vm_heap v') a C1) as [l Zl]. congruence.
    - rewrite abs_collect. apply safe_ok. split; [exact H|discriminate].
    - destruct (split i v) as [s| |] eqn:Es; [|apply safe_ok; split; [exact H|discriminate]..].
      assert (Js : J (join s)).
      { unfold split in Es. pose proof (firstn_skipn i (vm_threads v)) as Q. destruct (skipn i (vm_threads v)) as [|t ts]; [discriminate|].
        match type of Es with Ok ?a = Ok ?b => assert (a = b) as <- by congruence end. unfold join. cbn [m_heap m_glob m_world m_pre m_cur m_post].
        rewrite Q. destruct v; exact H. }
      eapply safe_bind; [apply debug_J; exact Js|]. intros [ok s'] J'. apply safe_ok. split; [exact J'|discriminate].
  Qed.
  Lemma run_J fuel l : forall v, J v -> Forall (op_ok q) l -> incl l ops -> safe (abs_run q fuel l v) (fun x => J (snd x) /\
    forall b r e, In (SeenCall b r e) (fst x) -> shown_ok q r /\ forall e', e = Some e' -> ~ confused e').
  Proof.
    unfold abs_run. induction l as [|op l IH]; intros v H F I; cbn [map host_run]; [apply safe_ok; split; [exact H|contradiction]|].
    inversion F as [|? ? F1 F2]; subst. eapply safe_bind; [apply host_step_J; [exact H|exact F1|apply I; now left]|].
    intros [x v1] [J1 C]. eapply safe_bind; [apply IH; [exact J1|exact F2|intros y Y; apply I; now right]|]. intros [xs v2] [J2 C2]. apply safe_ok. cbn [fst snd] in *.
    split; [exact J2|]. intros b r e [->|Y]; [now apply (C b r)|now apply (C2 b r)].
  Qed.
End Run.

(** ** Programs that use no syscall as a value *)
Fixpoint sweep (n : nat) (q : program_t) (a e : Z) : bool :=
  if e <=? a then true else
  match n with
  | O => false
  | S n' =>
      match znth (p_code q) a with
      | None => true
      | Some b => match of_opcode b with
                  | None => true
                  | Some INS_NEW_SCALL => false
                  | Some i => sweep n' q (a + ins_len i) e
                  end
      end
  end.
Definition calls_by_name (q : program_t) : bool := forallb (fun f => sweep (List.length (p_code q)) q (f_start f) (f_end f)) (p_functions q).
Lemma starts_left q a b : starts q a b -> b = a \/ exists x, at_ins q a x /\ starts q (a + ins_len (ins_op x)) b.
Proof.
  intros S. induction S as [|b x S IH A]; [now left|right]. destruct IH as [->|(y & Y & S')].
  - exists x. split; [exact A|apply starts_here].
  - exists y. split; [exact Y|]. now apply starts_next.
Qed.
Lemma ins_len_pos i : 1 <= ins_len i. Proof. unfold ins_len. destruct i; cbn [operands]; lia. Qed.
Lemma starts_le q a b : starts q a b -> a <= b.
Proof. induction 1 as [|b x S IH A]; [lia|]. pose proof (ins_len_pos (ins_op x)). lia. Qed.
Lemma sweep_ok q e b o : at_ins q b (I1 INS_NEW_SCALL o) -> b < e -> forall n a, sweep n q a e = true -> starts q a b -> False.
Proof.
  intros B L. induction n as [|n IH]; intros a W S; cbn [sweep] in W; pose proof (starts_le _ _ _ S) as G; replace (e <=? a) with false in W by lia; [discriminate|].
  destruct (starts_left _ _ _ S) as [->|(x & X & S')].
  - rewrite (VmFacts.at_opcode _ _ _ B), InstrProofs.of_opcode_opcode in W. cbn [ins_op] in W. discriminate.
  - rewrite (VmFacts.at_opcode _ _ _ X), InstrProofs.of_opcode_opcode in W. apply (IH (a + ins_len (ins_op x))); [|exact S'].
    destruct (ins_op x); first [exact W|discriminate W].
Qed.
Lemma by_name q : calls_by_name q = true -> ~ syscall_values q.
Proof.
  intros C (f & a & o & I & S & L & A). unfold calls_by_name in C. rewrite forallb_forall in C. exact (sweep_ok _ _ _ _ A L _ _ (C f I) S).
Qed.

(** Without such values no syscall can be misused. *)
Lemma not_misused q ops v0 : verified q -> ~ syscall_values q -> vm_ok q v0 -> Forall (op_ok q) ops -> ~ misused q ops v0.
Proof.
  intros V NS O K. assert (NM : forall s, vm_ok q (join s) -> misuse q s -> False).
  { intros s Os (n & k & fn & r & _ & E & _). pose proof (cur_thread q s Os) as [T _ _ _]. unfold stack in E. rewrite E in T. apply Forall_inv in T. exact (NS (proj1 T)). }
  assert (LO : forall v, leads q ops v0 v -> vm_ok q v).
  { intros v L. induction L as [|h g w ts f args L IH A N|s s' L IH F E|h g w pre t post n b L IH|h g w pre t post l L IH|h g w pre t post L IH F].
    - exact O.
    - assert (Kf : In f (p_functions q) /\ Forall (arg_ok q) args).
      { rewrite Forall_forall in K. destruct A as [A|[A|(_ & -> & A)]]; [apply (K _ A)|apply (K _ A)|]. split; [|constructor].
        unfold function_find in A. apply find_some in A. apply A. }
      destruct Kf as [If Ka]. exact (started_ok q V (Vm h g w ts) f args IH If Ka N).
    - destruct (step_safe q s V IH F) as [M|G]; [destruct (NM s IH M)|]. rewrite E in G. exact G.
    - now apply idle_ok.
    - now apply breaks_ok.
    - destruct IH as [I1 I2 I3]. cbn [vm_heap vm_glob vm_threads] in *. constructor; cbn [vm_heap vm_glob vm_threads]; auto.
      apply Forall_app in I3. destruct I3 as [C1 C2]. inversion C2; subst. apply Forall_app. auto. }
  intros (s & L & _ & M). exact (NM s (LO _ L) M).
Qed.
