(** C118: functions of the host are called as the script says. *)
From Coq Require Import ZArith List Bool Lia ZifyBool String.
From Verif Require Import Base BaseFacts F32 Instr InstrSpec InstrProofs Program VM AbsHeap Gc GcProofs GcSpec
  Host Demo VmSpec VmFacts RunFacts Source Build DriverMain PropertiesDriver PropertiesOps PropertiesMem PropertiesRun PropertiesSched PropertiesBuiltins PropertiesIo SrcSem CgSpec RunSpec.
Import ListNotations.
Open Scope list_scope.
Open Scope Z_scope.

(** ** Specification *)
(** [c] is a call the program can make: of a function of the host that is bound to
    one of its syscalls, with the number of arguments that it takes, or of sleep
    with a whole number. *)
Definition possible (q : program_t) (c : bytes * list harg) : Prop :=
  exists k nm f, znth (p_syscalls q) k = Some (Sysc nm (Some f)) /\
    (f = F_host (fst c) (List.length (snd c)) \/ f = F_sleep /\ exists n, c = (bs "sleep", [HaVal (SInt n)])).
(** What can become of the outside world: output is added, input is consumed from
    its front, calls of functions of the host are added; how the outside world
    answers does not change. *)
Definition goes_on (q : program_t) (w w' : world) : Prop :=
  w_sin w' = w_sin w /\ w_cos w' = w_cos w /\ w_tan w' = w_tan w /\ w_host w' = w_host w /\
  exists o i c, w_out w' = w_out w ++ o /\ w_in w = i ++ w_in w' /\ w_log w' = w_log w ++ c /\ Forall (possible q) c.
(** [p] is the value answered, allocated in the heap [h], which then is [h']. *)
Inductive answered {P H} (ops : hops P H) (h : H) : hret -> H -> P -> Prop :=
| ans_none : answered ops h HrNone h (h_null ops)
| ans_int : forall z h' p, in_i32 z = true -> h_newS ops h (SInt z) = Ok (h', p) -> answered ops h (HrInt z) h' p
| ans_flt : forall x h' p, h_newS ops h (SFlt x) = Ok (h', p) -> answered ops h (HrFlt x) h' p
| ans_str : forall s h' p, ~ In 0 s -> h_newS ops h (SStr s) = Ok (h', p) -> answered ops h (HrStr s) h' p.

(** ** Proof support *)
Lemma goes_refl q w : goes_on q w w.
Proof. unfold goes_on. repeat (split; [reflexivity|]). exists [], [], []. rewrite !app_nil_r. repeat split. constructor. Qed.
Lemma goes_trans q a b c : goes_on q a b -> goes_on q b c -> goes_on q a c.
Proof.
  intros (A1 & A2 & A3 & A4 & o & i & l & A5 & A6 & A7 & A8) (B1 & B2 & B3 & B4 & o' & i' & l' & B5 & B6 & B7 & B8).
  unfold goes_on. repeat (split; [congruence|]). exists (o ++ o'), (i ++ i'), (l ++ l'). rewrite B5, A5, A6, B6, B7, A7, !app_assoc. repeat split.
  apply Forall_app. auto.
Qed.
Lemma goes_put q w o : goes_on q w (w_put w o).
Proof. unfold goes_on. repeat (split; [reflexivity|]). exists o, [], []. rewrite !app_nil_r. repeat split. constructor. Qed.
Lemma goes_take q w i r : w_in w = i ++ r -> goes_on q w (w_take w r).
Proof. intros E. unfold goes_on. repeat (split; [reflexivity|]). exists [], i, []. rewrite !app_nil_r. repeat split; auto. Qed.
Lemma goes_seed q w x : goes_on q w (w_seed w x).
Proof. unfold goes_on. repeat (split; [reflexivity|]). exists [], [], []. rewrite !app_nil_r. repeat split. constructor. Qed.
Lemma goes_call q w c : possible q c -> goes_on q w (w_call w c).
Proof. intros Pc. unfold goes_on. repeat (split; [reflexivity|]). exists [], [], [c]. rewrite !app_nil_r. repeat split. repeat constructor. exact Pc. Qed.
Lemma fgets_split n i : let (a, b) := fgets n i in i = a ++ b.
Proof.
  revert i. induction n as [|n IH]; intros i; [reflexivity|]. destruct i as [|c r]; [reflexivity|]. cbn [fgets].
  destruct (c =? 10); [reflexivity|]. specialize (IH r). destruct (fgets n r) as [a b]. cbn [app]. now f_equal.
Qed.

Section Keeps.
  Context {P H : Type}.
  Variable ops : hops P H.
  Variable q : program_t.
  Notation M := (@M P H).
  Definition keeps {A} (m : M A) : Prop := forall s x s', m s = Ok (x, s') -> goes_on q (m_world s) (m_world s').
  Definition keeps_at {A} (w : world) (m : M A) : Prop := forall s x s', m_world s = w -> m s = Ok (x, s') -> goes_on q w (m_world s').

  Lemma keeps_same A (m : M A) : (forall s x s', m s = Ok (x, s') -> m_world s' = m_world s) -> keeps m.
  Proof. intros E s x s' R. rewrite (E _ _ _ R). apply goes_refl. Qed.
  Lemma keeps_bind A B (m : M A) (k : A -> M B) : keeps m -> (forall a, keeps (k a)) -> keeps (mbind m k).
  Proof. intros Km Kk s x s' R. apply mbind_ok in R. destruct R as (a & s1 & R1 & R2). eapply goes_trans; [eapply Km|eapply Kk]; eassumption. Qed.
  Lemma keeps_ret A (a : A) : keeps (ret a). Proof. apply keeps_same. intros s x s' R. unfold ret in R. congruence. Qed.
  Lemma keeps_lift A (r : res A) : keeps (lift r).
  Proof. apply keeps_same. intros s x s' R. apply lift_ok in R. destruct R as [_ ->]. reflexivity. Qed.
  Lemma keeps_mget A (f : mst P H -> A) : keeps (mget f). Proof. apply keeps_same. intros s x s' R. unfold mget in R. congruence. Qed.
  Lemma keeps_mod f : keeps (mod_cur f : M unit).
  Proof. apply keeps_same. intros s x s' R. unfold mod_cur in R. inversion R. reflexivity. Qed.
  Lemma keeps_heap h : keeps (set_heap h : M unit). Proof. apply keeps_same. intros s x s' R. inversion R. reflexivity. Qed.
  Lemma keeps_glob g : keeps (set_glob g : M unit). Proof. apply keeps_same. intros s x s' R. inversion R. reflexivity. Qed.
  Lemma keeps_add t : keeps (add_thread t : M unit). Proof. apply keeps_same. intros s x s' R. inversion R. reflexivity. Qed.
  Lemma keeps_pop : keeps (pop : M P).
  Proof. apply keeps_same. intros s x s' R. unfold pop in R. destruct (t_stk (m_cur s)); [discriminate|]. inversion R. reflexivity. Qed.
  Lemma keeps_new_s c : keeps (new_s ops c : M P).
  Proof.
    apply keeps_same. intros s x s' R. unfold new_s in R. destruct (h_newS ops (m_heap s) c) as [[h p]| |]; try discriminate. inversion R. reflexivity.
  Qed.
  Lemma keeps_new_a c : keeps (new_a ops c : M P).
  Proof.
    apply keeps_same. intros s x s' R. unfold new_a in R. destruct (h_newA ops (m_heap s) c) as [[h p]| |]; try discriminate. inversion R. reflexivity.
  Qed.
  Lemma keeps_deref p : keeps (deref ops p : M (view P)).
  Proof. apply keeps_same. intros s x s' R. unfold deref in R. apply lift_ok in R. destruct R as [_ ->]. reflexivity. Qed.
  (** What is done with the world. *)
  Lemma keeps_world A (k : world -> M A) : (forall w, keeps_at w (k w)) -> keeps (mbind (mget m_world) k).
  Proof. intros K s x s' R. unfold mbind, mget in R. eapply K; [reflexivity|exact R]. Qed.
  Lemma keeps_weak A w (m : M A) : keeps m -> keeps_at w m.
  Proof. intros K s x s' <- R. eapply K; exact R. Qed.
  Lemma keeps_set A w w' (k : unit -> M A) : goes_on q w w' -> (forall u, keeps (k u)) -> keeps_at w (mbind (set_world w') k).
  Proof. intros G K s x s' _ R. apply mbind_ok in R. destruct R as (a & s1 & R1 & R2). inversion R1; subst. eapply goes_trans; [exact G|]. exact (K _ _ _ _ R2). Qed.

  Ltac kp := repeat first
    [ apply keeps_ret | apply keeps_lift | apply keeps_mod | apply keeps_heap | apply keeps_glob | apply keeps_add
    | apply keeps_pop | apply keeps_deref | apply keeps_new_s | apply keeps_new_a | apply keeps_mget
    | apply keeps_bind; [|intros]
    | match goal with
      | |- keeps (if ?b then _ else _) => destruct b
      | |- keeps (match ?x with _ => _ end) => destruct x
      | |- keeps (let _ := _ in _) => cbv zeta
      end
    | progress unfold raise, push, push_s, push_none, pop_v, finish_op, operand, fetch, enter, head, leave, gc_copy, new_thread, sys_float, push_hret ].
  Lemma keeps_pop_n n : keeps (pop_n n : M (list P)).
  Proof. induction n; cbn [pop_n]; kp. exact IHn. Qed.
  Lemma keeps_pop_hargs n : keeps (pop_hargs ops n : M (list harg)).
  Proof. induction n; cbn [pop_hargs]; kp. exact IHn. Qed.
  Lemma keeps_copy_all l : keeps (copy_all ops l : M (list P)).
  Proof. induction l; cbn [copy_all]; kp. exact IHl. Qed.
  Lemma hargs_count n : forall s x s', pop_hargs ops n s = Ok (x, s') -> List.length x = n.
  Proof.
    induction n as [|n IH]; cbn [pop_hargs]; intros s x s' R; [unfold ret in R; inversion R; reflexivity|].
    apply mbind_ok in R. destruct R as (w & s1 & _ & R). apply mbind_ok in R. destruct R as (l & s2 & R1 & R). unfold ret in R. inversion R; subst.
    cbn [List.length]. f_equal. eapply IH; exact R1.
  Qed.
  Lemma keeps_sys k nm f n : znth (p_syscalls q) k = Some (Sysc nm (Some f)) -> keeps (run_sys ops q f n : M unit).
  Proof.
    intros E. destruct f; cbn [run_sys]; try (kp; try apply keeps_pop_n; try apply keeps_copy_all; fail).
    - apply keeps_world. intros w. apply keeps_set; [apply goes_seed|]. intros. kp.
    - apply keeps_world. intros w. destruct (w_in w) as [|c r] eqn:Ei; [apply keeps_weak; kp|]. apply keeps_set; [apply (goes_take q w [c]); exact Ei|]. intros. kp.
    - apply keeps_bind; [kp|intros v]. destruct v as [|[]|]; try (kp; fail).
      apply keeps_world. intros w. apply keeps_set; [apply goes_put|]. intros. kp.
    - apply keeps_world. intros w. destruct (w_in w) as [|c r] eqn:Ei; [apply keeps_weak; kp|].
      pose proof (fgets_split 79 (c :: r)) as Fs. destruct (fgets 79 (c :: r)) as [a b]. apply keeps_set; [apply (goes_take q w a); congruence|]. intros. kp.
    - apply keeps_bind; [kp|intros v]. destruct v as [|[]|]; try (kp; fail).
      apply keeps_world. intros w. apply keeps_set; [apply goes_put|]. intros. kp.
    - intros s x s' R. apply mbind_ok in R. destruct R as (args & s1 & R1 & R). pose proof (hargs_count _ _ _ _ R1) as L.
      eapply goes_trans; [exact (keeps_pop_hargs _ _ _ _ R1)|]. revert R. apply keeps_world. intros w. cbv zeta. apply keeps_set; [|intros; kp].
      apply goes_call. exists k, nm, (F_host name n0). split; [exact E|]. left. cbn [fst snd]. now rewrite rev_length, L.
    - apply keeps_bind; [kp|intros v]. destruct (is_number (plain v)); [|kp]. apply keeps_bind; [kp|intros z].
      apply keeps_world. intros w. apply keeps_set; [|intros; kp]. apply goes_call. exists k, nm, F_sleep. split; [exact E|]. right. split; [reflexivity|]. now exists z.
  Qed.
  Lemma keeps_syscall i n : keeps (do_syscall ops q i n : M unit).
  Proof. unfold do_syscall. destruct (znth (p_syscalls q) i) as [[nm [f|]]|] eqn:E; [eapply keeps_sys; exact E|kp..]. Qed.
  Lemma keeps_ins i : keeps (do_ins ops q i : M unit).
  Proof. destruct i; cbn [do_ins]; kp; try apply keeps_syscall; try apply keeps_pop_n. Qed.
  Lemma keeps_step : keeps (step_imp ops q : M unit).
  Proof. unfold step_imp, check_breakpoints. kp. apply keeps_ins. Qed.
  Lemma keeps_collect : keeps (gc_collect ops : M unit).
  Proof. apply keeps_same. intros s x s' R. apply (gc_collect_facts ops _ _ _ R). Qed.
  Lemma keeps_tick : keeps (tick_gc ops : M unit).
  Proof. apply keeps_same. intros s x s' R. apply (tick_facts ops _ _ _ R). Qed.
  Ltac ks := repeat first [apply keeps_step | apply keeps_tick | apply keeps_collect | apply keeps_ret | apply keeps_lift | apply keeps_mget | apply keeps_mod
    | match goal with
      | |- keeps (if ?b then _ else _) => destruct b
      | |- keeps (mbind _ _) => apply keeps_bind; [|intros]
      end].
  Lemma keeps_resume n : keeps (resume ops q n : M bool).
  Proof.
    assert (L : forall n, keeps (resume_loop ops q n : M unit)).
    { induction n0 as [|n0 IHn0]; cbn [resume_loop]; ks. exact IHn0. }
    unfold resume. ks. apply L.
  Qed.
  Lemma keeps_debug fuel d : keeps (debug_step q ops fuel d : M bool).
  Proof.
    assert (L : forall n l, keeps (step_line_loop ops q n l : M unit)).
    { induction n; intros l; cbn [step_line_loop]; ks. apply IHn. }
    destruct d; cbn [debug_step]; [apply keeps_resume|unfold step_inst; ks|unfold step_line; ks; apply L|..].
    all: try (ks; fail).
  Qed.
  Lemma keeps_round c : forall n h g w pre post b v, vm_round ops q n c h g w pre post = Ok (b, v) -> goes_on q w (vm_world v).
  Proof.
    induction n as [|n IH]; intros h g w pre post b v E; (destruct post as [|t post]; cbn [vm_round] in E; [inversion E; apply goes_refl|]); [discriminate|].
    destruct (negb (t_waits t =? 0)). { apply bind_ok in E. destruct E as (k & _ & E). eapply IH; exact E. }
    destruct (t_fin t || negb (no_error t)); [eapply IH; exact E|].
    destruct (resume ops q c _) as [[ok s]| |] eqn:Er; try discriminate. pose proof (keeps_resume c _ _ _ Er) as G. cbn [m_world] in G.
    destruct ok; [eapply goes_trans; [exact G|eapply IH; exact E]|]. destruct (no_error (m_cur s)); [discriminate|]. inversion E; subst. exact G.
  Qed.
  Lemma keeps_new_thread v f argv b v' : vm_new_thread ops v f argv = Ok (b, v') -> goes_on q (vm_world v) (vm_world v').
  Proof.
    unfold vm_new_thread. assert (K : keeps (new_thread ops f argv : M bool)) by (kp; apply keeps_copy_all).
    destruct (new_thread ops f argv _) as [[ok s]| |] eqn:E; try discriminate. apply K in E. intros R. inversion R; subst. exact E.
  Qed.
  Lemma keeps_call_loop fuel : forall s s', call_loop ops q fuel s = Ok s' -> goes_on q (m_world s) (m_world s').
  Proof.
    induction fuel as [|n IH]; intros s s' E; cbn [call_loop] in E; (destruct (t_fin (m_cur s) || negb (no_error (m_cur s))); [inversion E; apply goes_refl|]);
      [discriminate|]. destruct (resume ops q _ s) as [[ok s1]| |] eqn:R; try discriminate. apply keeps_resume in R.
    destruct ok; [eapply goes_trans; [exact R|now apply IH]|]. inversion E; subst. exact R.
  Qed.
End Keeps.

(** ** C118 *)
(** In any history of calls of a host, whatever the program, its bindings, the heap
    and the collector, the outside world only goes on. *)
Theorem C118_world_goes_on : forall P H (q : program_t) fuel (l : list (hops P H * hostop)) v xs v',
  host_run q fuel l v = Ok (xs, v') -> goes_on q (vm_world v) (vm_world v').
Proof.
  intros P H q fuel. induction l as [|[ops op] l IH]; intros v xs v' E; cbn [host_run] in E; [inversion E; apply goes_refl|].
  apply bind_ok in E. destruct E as ([x v1] & E1 & E). apply bind_ok in E. destruct E as ([ys v2] & E2 & E). inversion E; subst.
  eapply goes_trans; [|eapply IH; exact E2]. clear E E2 IH.
  assert (Na : forall h args y, new_args ops h args = Ok y -> vm_world (with_heap v (fst y)) = vm_world v) by reflexivity.
  destruct op as [f args|n| |f args| |i d]; cbn [host_step] in E1.
  - apply bind_ok in E1. destruct E1 as ([h ps] & _ & E1). apply bind_ok in E1. destruct E1 as ([ok v3] & E3 & E1). inversion E1; subst.
    apply keeps_new_thread with (q := q) in E3. exact E3.
  - apply bind_ok in E1. destruct E1 as ([ok v3] & E3 & E1). inversion E1; subst. unfold vm_resume in E3. eapply keeps_round; exact E3.
  - apply bind_ok in E1. destruct E1 as ([ok v3] & E3 & E1). inversion E1; subst. unfold call_init in E3.
    destruct (function_find q (bs "@init")) as [f|]; [|inversion E3; apply goes_refl].
    apply bind_ok in E3. destruct E3 as ([ok' v4] & E4 & E3). apply keeps_new_thread with (q := q) in E4. eapply goes_trans; [exact E4|].
    destruct ok'; [unfold vm_resume in E3; eapply keeps_round; exact E3|inversion E3; apply goes_refl].
  - apply bind_ok in E1. destruct E1 as ([h ps] & _ & E1). apply bind_ok in E1. destruct E1 as ([[[ok p] e] v3] & E3 & E1). inversion E1; subst.
    unfold call_once in E3. apply bind_ok in E3. destruct E3 as ([ok' v4] & E4 & E3). apply keeps_new_thread with (q := q) in E4.
    eapply goes_trans; [exact E4|]. apply bind_ok in E3. destruct E3 as (v5 & E5 & E3). destruct (gc_collect_vm_facts ops _ _ E5) as [W5 _]. rewrite <- W5.
    destruct (negb ok'); [discriminate|]. apply bind_ok in E3. destruct E3 as (s & Es & E3). apply bind_ok in E3. destruct E3 as (s' & El & E3).
    assert (Ws : m_world s = vm_world v5) by (unfold split in Es; destruct (skipn 0 (vm_threads v5)); inversion Es; reflexivity). rewrite <- Ws.
    apply keeps_call_loop in El. destruct (t_err (m_cur s')); [inversion E3; subst; exact El|].
    apply bind_ok in E3. destruct E3 as (p' & _ & E3). inversion E3; subst. exact El.
  - apply bind_ok in E1. destruct E1 as (v3 & E3 & E1). inversion E1; subst. destruct (gc_collect_vm_facts ops _ _ E3) as [-> _]. apply goes_refl.
  - destruct (split i v) as [s| |] eqn:Es; [|inversion E1; apply goes_refl..].
    apply bind_ok in E1. destruct E1 as ([ok s'] & E3 & E1). inversion E1; subst.
    assert (Ws : m_world s = vm_world v) by (unfold split in Es; destruct (skipn i (vm_threads v)); inversion Es; reflexivity).
    apply keeps_debug in E3. rewrite Ws in E3. exact E3.
Qed.

(** A function of the host is called with the values passed, in the order of the
    call, after everything that was called before; what it answers is the value of
    the call, and nothing else changes. *)
Lemma pop_hargs_at P H (ops : hops P H) : forall ps ws, forall h g w pre t post rest, t_stk t = ps ++ rest ->
  Forall2 (fun p v => h_view ops h p = Ok v) ps ws ->
  pop_hargs ops (List.length ps) (Mst h g w pre t post) = Ok (map (harg_of (P := P)) ws, Mst h g w pre (t_set_stk t rest) post).
Proof.
  induction ps as [|p ps IH]; intros ws h g w pre t post rest E F; inversion F as [|? v ? vs Ev Fs]; subst.
  - cbn [List.length pop_hargs map app] in *. unfold ret. rewrite <- E. now destruct t.
  - cbn [List.length pop_hargs map app] in *. destruct t as [a1 a2 a3 a4 a5 a6 a7 a8 a9 a10]. cbn [t_stk] in E. subst. mcbv. rw Ev.
    erewrite IH; [|reflexivity|exact Fs]. mcbv. reflexivity.
Qed.
Lemma push_answered P H (ops : hops P H) r h0 h' p g w pre t post : answered ops h0 r h' p ->
  push_hret ops r (Mst h0 g w pre t post) = Ok (tt, Mst h' g w pre (t_set_stk t (p :: t_stk t)) post).
Proof.
  intros A. destruct A as [|z h' p R N|x h' p N|s h' p R N]; unfold push_hret; destruct t as [a1 a2 a3 a4 a5 a6 a7 a8 a9 a10]; mcbv.
  - reflexivity.
  - rewrite (to_i32_id z R). rw N. reflexivity.
  - rw N. reflexivity.
  - replace (cstr s) with s. { rw N. reflexivity. }
    clear - R. induction s as [|c r IH]; [reflexivity|]. cbn [cstr]. destruct (c =? 0) eqn:E; [exfalso; apply R; left; lia|].
    f_equal. apply IH. intros I. apply R. now right.
Qed.
Lemma forall2_rev A B (R : A -> B -> Prop) l m : Forall2 R l m -> Forall2 R (rev l) (rev m).
Proof. induction 1 as [|a b l m X F IH]; cbn [rev]; [constructor|]. apply Forall2_app; [exact IH|repeat constructor; exact X]. Qed.
Theorem C118_call : forall P H (ops : hops P H) prog s name args ws n rest r h q,
  sys_state prog s (F_host name (List.length args)) n (rev args ++ rest) ->
  Forall2 (fun p v => h_view ops (m_heap s) p = Ok v) args ws ->
  let w := w_call (m_world s) (name, map (harg_of (P := P)) ws) in
  w_host (m_world s) (w_log (m_world s) ++ [(name, map (harg_of (P := P)) ws)]) = Some r ->
  answered ops (m_heap s) r h q ->
  step_imp ops prog s = Ok (tt, with_world (after s (pc s + 9) (q :: rest) h) w).
Proof.
  intros P H ops prog s name args ws n rest r h q St F w R A. rewrite (sys_step _ _ _ _ _ _ _ _ St). destruct St as (Q & Es & _).
  cbn [run_sys]. apply forall2_rev in F.
  pose proof (push_answered P H ops) as PA. pose proof (pop_hargs_at P H ops (rev args) (rev ws)) as PH. rewrite rev_length in PH.
  unfold with_world. subst w. dstate s. mcbv. subst. erewrite PH; [|reflexivity|exact F]. rewrite <- map_rev, rev_involutive.
  mcbv. cbn [w_call w_host w_log]. rw R. rewrite (PA _ _ _ _ _ _ _ _ _ A). mcbv. done1.
Qed.
(** If it refuses its arguments, the thread ends with that error. *)
Theorem C118_refused : forall P H (ops : hops P H) prog s name args ws n rest,
  sys_state prog s (F_host name (List.length args)) n (rev args ++ rest) ->
  Forall2 (fun p v => h_view ops (m_heap s) p = Ok v) args ws ->
  let w := w_call (m_world s) (name, map (harg_of (P := P)) ws) in
  w_host (m_world s) (w_log (m_world s) ++ [(name, map (harg_of (P := P)) ws)]) = None ->
  step_imp ops prog s = Ok (tt, with_world (VmSpec.failed s (pc s + 9) rest e_bad_argument) w).
Proof.
  intros P H ops prog s name args ws n rest St F w R. rewrite (sys_step _ _ _ _ _ _ _ _ St). destruct St as (Q & Es & _).
  cbn [run_sys]. apply forall2_rev in F.
  pose proof (pop_hargs_at P H ops (rev args) (rev ws)) as PH. rewrite rev_length in PH.
  unfold with_world. subst w. dstate s. mcbv. subst. erewrite PH; [|reflexivity|exact F]. rewrite <- map_rev, rev_involutive.
  mcbv. cbn [w_call w_host w_log]. rw R. done1.
Qed.
(** The same in the meaning of the source, which C82, C112 and C117 relate to the
    runs of the machine. *)
Definition valued (st : sst) (r : hret) : option aval :=
  match r with
  | HrNone => Some ANone
  | HrInt z => if in_i32 z then Some (AS (SInt z)) else None
  | HrFlt x => Some (AS (SFlt x))
  | HrStr s => if existsb (Z.eqb 0) s then None else Some (AS (SStr s))
  end.
Theorem C118_in_source : forall prog k nm name vs ws st,
  znth (p_syscalls prog) k = Some (Sysc nm (Some (F_host name (List.length vs)))) ->
  Forall2 (fun v w => abs_view (s_heap st) v = Ok w) vs ws ->
  let c := (name, map (harg_of (P := aval)) ws) in
  let st' := St (s_heap st) (s_glob st) (w_call (s_world st) c) (s_new st) in
  match w_host (s_world st) (w_log (s_world st) ++ [c]) with
  | Some r => forall v, valued st r = Some v -> vm_sys prog k vs st = Done (v, st')
  | None => vm_sys prog k vs st = Error e_bad_argument st'
  end.
Proof.
  intros prog k nm name vs ws st E F c st'. apply forall2_rev in F.
  assert (X : vm_sys prog k vs st =
    match (match w_host (s_world st) (w_log (s_world st) ++ [c]) with
      | Some r => push_hret abs_ops r | None => raise e_bad_argument end)
      (Mst (s_heap st) [] (w_call (s_world st) c) (s_new st) (t_set_stk fresh_thread []) []) with
    | Ok (_, s) =>
        let st' := St (m_heap s) (s_glob st) (m_world s) (m_pre s) in
        match t_err (m_cur s), t_stk (m_cur s) with
        | Some e, _ => Error e st'
        | None, [v] => Done (v, st')
        | None, _ => Undefined
        end
    | _ => Undefined
    end).
  { unfold vm_sys, do_syscall. rewrite E. cbn [run_sys].
    pose proof (pop_hargs_at aval aheap abs_ops (rev vs) (rev ws)) as PH. rewrite rev_length in PH.
    unfold mbind at 1. specialize (PH (s_heap st) [] (s_world st) (s_new st) (t_set_stk fresh_thread (rev vs)) [] []).
    rewrite (PH ltac:(cbn; now rewrite app_nil_r) F). rewrite <- map_rev, rev_involutive. reflexivity. }
  rewrite X. clear X. destruct (w_host (s_world st) (w_log (s_world st) ++ [c])) as [r|].
  - intros v V.
    assert (A : answered abs_ops (s_heap st) r (s_heap st) v).
    { destruct r as [|z|x|s]; cbn [valued] in V.
      - inversion V; subst. apply ans_none.
      - destruct (in_i32 z) eqn:I; inversion V; subst. now apply ans_int.
      - inversion V; subst. now apply ans_flt.
      - destruct (existsb (Z.eqb 0) s) eqn:I; inversion V; subst. apply ans_str; [|reflexivity].
        intros J. assert (existsb (Z.eqb 0) s = true) by (apply existsb_exists; exists 0; auto). congruence. }
    rewrite (push_answered _ _ abs_ops r _ _ _ _ _ _ _ _ A). reflexivity.
  - reflexivity.
Qed.

(** ** A host with one function

    It answers its first call with a string, its second with a number, and refuses
    everything after that. *)
Definition beep_world : world :=
  World [] [] 1 (fun _ => f_zero) (fun _ => f_zero) (fun _ => f_zero) []
    (fun l => match List.length l with 1%nat => Some (HrStr (bs "ok")) | 2%nat => Some (HrInt 7) | _ => None end).
Definition beep_text : string := "function main()
  var a = new_array(5)
  puts(beep(3, ""hi"") + ""!"")
  puts("""" + beep(a, none))
  beep(1.5, 2)
end
"%string.
Definition beep_regs : list (bytes * Z) := driver_regs ++ [(bs "beep", 2)].
Definition beep_prog : program_t :=
  match build 5 (file_named beep_text) Z.of_nat true beep_regs (say_m beep_text) with
  | Ok (Some p) => snd (syscall_resolve (driver_resolve p) (bs "beep") (F_host (bs "beep") 2))
  | _ => Prog [] [] [] [] [] []
  end.
Definition beep_log : list (bytes * list harg) :=
  [(bs "beep", [HaVal (SInt 3); HaVal (SStr (bs "hi"))]); (bs "beep", [HaArray 5; HaNone]); (bs "beep", [HaVal (SFlt (f_of_bits 1069547520)); HaVal (SInt 2)])].
Example C118_ex :
  match function_find beep_prog (bs "main") with
  | Some g => match host_gc beep_prog 500 (map (pair cfg_always) [HCallInit; HThread g []; HResume 100]) (vm_start 0 beep_world) with
              | Ok (seen, v) => last seen (SeenFlag true) = SeenFlag false /\ w_out (vm_world v) = bs "ok!" ++ [10] ++ bs "7" ++ [10] /\
                                w_log (vm_world v) = beep_log
              | _ => False end
  | None => False
  end.
Proof. vm_compute. repeat split. Qed.
(** The states and hypotheses of the theorems about one call. *)
Definition beep_code : program_t :=
  Prog [] [Sysc (bs "beep") (Some (F_host (bs "beep") 2))] [demo_main] (asm [I1 INS_NEW_INT 3; I1 INS_NEW_INT 4; I2 INS_SCALL 2 0; I1 INS_RET 0]) [] [].
Definition beep_state (l : list (bytes * list harg)) : mst aval aheap :=
  Mst [] [] (World [] [] 1 (fun _ => f_zero) (fun _ => f_zero) (fun _ => f_zero) l (w_host beep_world)) []
    (t_set_pc (t_set_stk fresh_thread [AS (SInt 4); AS (SInt 3)]) 10) [].
Example C118_call_ex : forall l,
  sys_state beep_code (beep_state l) (F_host (bs "beep") 2) 2 (rev [AS (SInt 3); AS (SInt 4)] ++ []) /\
  Forall2 (fun p v => h_view abs_ops (m_heap (beep_state l)) p = Ok v) [AS (SInt 3); AS (SInt 4)] [WS (SInt 3); WS (SInt 4)] /\
  w_host (m_world (beep_state [])) (w_log (m_world (beep_state [])) ++ [(bs "beep", [HaVal (SInt 3); HaVal (SInt 4)])]) = Some (HrStr (bs "ok")) /\
  answered abs_ops [] (HrStr (bs "ok")) [] (AS (SStr (bs "ok"))) /\
  w_host (m_world (beep_state beep_log)) (w_log (m_world (beep_state beep_log)) ++ [(bs "beep", [HaVal (SInt 3); HaVal (SInt 4)])]) = None.
Proof.
  intros l. split.
  { split; [reflexivity|]. split; [reflexivity|]. exists 0, (bs "beep"). split; [|reflexivity]. unfold at_ins.
    split; [vm_compute; reflexivity|]. split; [vm_compute; discriminate|]. split; [repeat split; vm_compute; congruence|].
    eexists. split; vm_compute; reflexivity. }
  split; [repeat constructor|]. split; [reflexivity|]. split; [|reflexivity].
  apply ans_str; [|reflexivity]. vm_compute. intuition discriminate.
Qed.

Print Assumptions C118_world_goes_on.
Print Assumptions C118_call.
Print Assumptions C118_refused.
Print Assumptions C118_in_source.
