(** Proof support: calls by the host on the ideal heap, from the simulation of
    functions. *)
From Coq Require Import ZArith List Bool Lia String ZifyBool.
From Verif Require Import PropertiesRun PropertiesSched.
From Verif Require Import Base BaseFacts F32 Instr Program VM AbsHeap Gc GcSpec VmSpec VmFacts RunFacts Ast Sema SemaSpec Codegen SrcSem
  CgCode CgLayout CgSlots CgStep CgSim CgSpec CgLink CgRun CgFlow Host RunSpec SrcFacts SrcKeys HostProofs Refine.
Import ListNotations.
Open Scope Z_scope.
Open Scope list_scope.

Lemma with_same (s : machine) : Mst (m_heap s) (m_glob s) (m_world s) (m_pre s) (m_cur s) (m_post s) = s.
Proof. destruct s; reflexivity. Qed.

Section HostRun.
  Variable q : program_t.

  (** ** Runs of a known length *)
  Inductive evn (Q : config -> Prop) : nat -> config -> Prop :=
  | evn_now : forall k c, Q c -> evn Q k c
  | evn_step : forall k c c', c_fin c = false -> cstep q c c' -> evn Q k c' -> evn Q (S k) c.
  Lemma ev_evn Q c : ev q Q c -> (exists k, evn Q k c) \/ forall s, core s = c -> overflows q s.
  Proof.
    induction 1 as [c H|c H|c c' F S H IH].
    - left. exists O. now constructor.
    - right. intros s E. exists s. split; [constructor|]. rewrite <- E in H. exact H.
    - destruct IH as [[k IH]|IH].
      + left. exists (Datatypes.S k). econstructor; eassumption.
      + right. intros s E. destruct (S s E) as (s1 & S1 & E1). destruct (IH s1 E1) as (s2 & S2 & D). exists s2. split; [|exact D].
        econstructor; [|exact S1|exact S2]. rewrite <- E in F. exact F.
  Qed.

  Variable Q : config -> Prop.
  Hypothesis QF : forall c, Q c -> c_fin c = true.
  Lemma loop_evn k : forall c s cyc, evn Q k c -> core s = c -> c_fin c = false -> c_err c = None ->
    exists s', resume_loop abs_ops q cyc s = Ok (tt, s') /\
      (Q (core s') \/ c_fin (core s') = false /\ c_err (core s') = None /\ t_hal (m_cur s') = t_hal (m_cur s') /\
       exists j, evn Q j (core s') /\ (j <= k)%nat /\ (cyc <> O -> j < k)%nat).
  Proof.
    induction k as [|k IH]; intros c s cyc E C F Er; inversion E as [j c0 H|j c0 c1 _ S H]; subst;
      try (apply QF in H; congruence).
    destruct cyc as [|cyc].
    - exists s. split; [reflexivity|]. right. repeat (split; [assumption||reflexivity|]). exists (Datatypes.S k).
      split; [exact E|]. split; [lia|congruence].
    - destruct (S s eq_refl) as (s1 & S1 & E1). cbn [resume_loop].
      unfold mbind at 1. change (tick_gc abs_ops s) with (Ok (tt, s)). unfold mbind at 1. rewrite S1.
      unfold mbind, mget. destruct (t_fin (m_cur s1)) eqn:F1.
      + exists s1. split; [reflexivity|]. left. rewrite E1. inversion H as [j c0 H0|j c0 c2 F2]; subst; [exact H0|].
        change (c_fin (core s1) = false) in F2. cbn [core c_fin] in F2. congruence.
      + assert (Er1 : c_err (core s1) = None).
        { destruct (sf_err _ _ _ (step_weak _ _ _ _ _ S1) Er) as [X|X]; [exact X|congruence]. }
        destruct (t_hal (m_cur s1)) eqn:Ha.
        * exists s1. split; [reflexivity|]. right. split; [exact F1|]. split; [exact Er1|]. split; [reflexivity|]. exists k. subst c1.
          split; [exact H|]. split; [lia|lia].
        * destruct (IH c1 s1 cyc H E1) as (s2 & S2 & D); [rewrite <- E1; exact F1|rewrite <- E1; exact Er1|].
          exists s2. split; [exact S2|]. destruct D as [D|(D1 & D2 & D3 & j & J1 & J2 & J3)]; [now left|]. right. repeat (split; [assumption|]).
          exists j. split; [exact J1|]. split; lia.
  Qed.
  Lemma core_unhalted s : core (with_cur s (t_set_hal (m_cur s) false)) = core s.
  Proof. reflexivity. Qed.
  Lemma resume_evn k c s cyc : evn Q k c -> core s = c -> c_fin c = false -> c_err c = None ->
    exists s', resume abs_ops q cyc s = Ok (no_error (m_cur s'), s') /\
      (Q (core s') \/ c_fin (core s') = false /\ c_err (core s') = None /\
       exists j, evn Q j (core s') /\ (j <= k)%nat /\ (cyc <> O -> j < k)%nat).
  Proof.
    intros E C F Er. unfold resume. unfold mbind at 1, mget. subst c. cbn [core c_fin] in F. rewrite F.
    unfold mbind at 1, mod_cur. unfold mbind at 1.
    destruct (loop_evn k _ (with_cur s (t_set_hal (m_cur s) false)) cyc E (core_unhalted s) F Er) as (s' & L & D).
    unfold with_cur in L. rewrite L. exists s'. split; [reflexivity|]. destruct D as [D|(D1 & D2 & _ & D3)]; auto.
  Qed.
  Lemma call_loop_evn k : forall c s fuel, evn Q k c -> core s = c -> (c_fin c = false -> c_err c = None) -> (k <= fuel)%nat ->
    exists s', call_loop abs_ops q fuel s = Ok s' /\ Q (core s').
  Proof.
    induction k as [k IH] using (well_founded_induction Nat.lt_wf_0). intros c s fuel E C Er L.
    inversion E as [j c0 H|j c0 c1 F S H]; subst.
    - exists s. split; [|exact H]. apply QF in H. cbn [core c_fin] in H. destruct fuel; cbn [call_loop]; rewrite H; reflexivity.
    - destruct fuel as [|fuel]; [lia|]. cbn [call_loop].
      specialize (Er F). cbn [core c_fin c_err] in F, Er. rewrite F. unfold no_error at 1. rewrite Er. cbn [orb negb].
      destruct (resume_evn (Datatypes.S j) _ s (Z.to_nat (128 * 1024)) E eq_refl F Er) as (s' & R & D). rewrite R.
      destruct D as [D|(D1 & D2 & i & I1 & I2 & I3)].
      + destruct (no_error (m_cur s')); [|exists s'; auto].
        exists s'. split; [|exact D]. apply QF in D. cbn [core c_fin] in D. destruct fuel; cbn [call_loop]; rewrite D; reflexivity.
      + cbn [core c_err c_fin] in D1, D2. unfold no_error. rewrite D2.
        assert (Z.to_nat (128 * 1024) <> O) by lia.
        destruct (IH i ltac:(lia) (core s') s' fuel I1 eq_refl (fun _ => D2) ltac:(lia)) as (s2 & S2 & D). exists s2. auto.
  Qed.
End HostRun.

(** ** The API on the ideal heap *)
Lemma abs_new_args h l : new_args abs_ops h l = Ok (h, map passed l).
Proof. induction l as [|[c|] l IH]; cbn [new_args map passed]; [reflexivity|cbn [abs_ops h_newS bind]|]; rewrite IH; reflexivity. Qed.
Lemma abs_copy l : forall s : machine, copy_all abs_ops (map passed l) s = Ok (map passed l, s).
Proof.
  induction l as [|c l IH]; intros s; [reflexivity|]. cbn [map copy_all].
  assert (G : gc_copy abs_ops (passed c) s = Ok (passed c, s)) by (destruct c, s; reflexivity).
  unfold mbind at 1. rewrite G. unfold mbind at 1. rewrite IH. reflexivity.
Qed.
Lemma abs_thread v g vs : num_args g = zlen vs ->
  vm_new_thread abs_ops v g (map passed vs) =
  Ok (true, Vm (vm_heap v) (vm_glob v) (vm_world v) (prepared fresh_thread g (map passed vs) :: vm_threads v)).
Proof.
  intros N. unfold vm_new_thread, new_thread. rewrite N. replace (zlen (map passed vs)) with (zlen vs) by (unfold zlen; now rewrite map_length).
  rewrite Z.eqb_refl. unfold mbind at 1. rewrite abs_copy. unfold mbind, add_thread, ret. cbn. reflexivity.
Qed.
Lemma abs_set_stacks (ts : list (thread aval)) : set_stacks ts (map (fun t => rev (t_stk t)) ts) = ts.
Proof. induction ts as [|t ts IH]; [reflexivity|]. cbn [map set_stacks]. rewrite IH, rev_involutive. destruct t; reflexivity. Qed.
Lemma abs_collect v : gc_collect_vm abs_ops v = Ok v.
Proof. unfold gc_collect_vm, roots_of. cbn [abs_ops h_collect]. rewrite abs_set_stacks. destruct v; reflexivity. Qed.
Lemma abs_call_once q fuel v g vs : num_args g = zlen vs ->
  host_step q abs_ops fuel (HCallOnce g vs) v =
  (s' <- call_loop abs_ops q fuel (starting q v g vs) ;;
   match t_err (m_cur s') with
   | Some e => Ok (SeenCall false ShNone (Some e), join s')
   | None => p <- return_value abs_ops (m_cur s') ;;
             Ok (SeenCall true (show_view (abs_view (m_heap s') p)) None, join s')
   end).
Proof.
  intros N. cbn [host_step]. rewrite abs_new_args. cbn [bind]. unfold call_once, with_heap. rewrite abs_thread by exact N. cbn [bind].
  rewrite abs_collect. cbn [bind negb]. unfold split. cbn [vm_threads skipn firstn bind vm_heap vm_glob vm_world].
  unfold starting. destruct (call_loop _ _ _ _) as [s'|x l|x]; cbn [bind]; try reflexivity.
  destruct (t_err (m_cur s')); cbn [bind]; [reflexivity|]. destruct (return_value abs_ops (m_cur s')); reflexivity.
Qed.

Section Calls.
  Variables (items : list ritem) (n : nat) (prog q : program_t).
  Hypothesis Gen : generate items n = Ok prog.
  Hypothesis Pok : program_ok items n.
  Hypothesis Fit : fits prog.
  Hypothesis Bnd : bound prog q.
  Let sx := sys_index q.
  Let lay := g_layout items n sx.

  Lemma find_place p : In p lay -> function_find q (fd_name (pl_f p)) =
    Some (placed_function (g_slots items n) (g_sizes items n) sx (g_ng items n) p).
  Proof.
    intros I. unfold function_find. rewrite (bo_functions _ _ Bnd), (gd_funs _ _ _ _ (made items n prog q Gen Pok Bnd)). fold sx. fold lay.
    pose proof (names_all items n Pok) as N.
    rewrite <- (layout_names (g_slots items n) (g_sizes items n) sx (g_ng items n) (g_items items n) 0 0) in N.
    change (layout _ _ sx _ _ 0 0) with lay in N. revert I N. generalize lay. intros l I N.
    induction l as [|y l IH]; [contradiction|]. cbn [map find] in *. inversion N; subst.
    change (f_name (placed_function (g_slots items n) (g_sizes items n) sx (g_ng items n) y)) with (fd_name (pl_f y)).
    destruct I as [->|I]; [rewrite bytes_eqb_refl; reflexivity|].
    destruct (bytes_eqb (fd_name (pl_f y)) (fd_name (pl_f p))) eqn:E; [|auto].
    apply bytes_eqb_eq in E. exfalso. apply H1. rewrite E. apply in_map_iff. exists p. auto.
  Qed.
  Lemma find_function f args body : In (f, args, body) (functs items) ->
    exists g, function_find q (fd_name f) = Some g /\ num_args g = zlen args /\ f_start g = address q (fd_name f).
  Proof.
    intros I. destruct (functs_in items f args body I) as (lend & J).
    assert (Ja : In (RFunc f args body lend) (g_items items n)) by (unfold g_items, add_init; apply in_or_app; left; exact J).
    destruct (layout_in (g_slots items n) (g_sizes items n) sx (g_ng items n) (g_items items n) f args body lend Ja 0 0) as (p & K & E1 & E2 & E3).
    pose proof (find_place p K) as F. rewrite E1 in F. eexists. split; [exact F|]. split.
    - unfold num_args. cbn [placed_function f_args]. rewrite E2. unfold zlen. now rewrite map_length.
    - unfold address. unfold function_find in F. rewrite F. reflexivity.
  Qed.
  Lemma find_init : exists g, function_find q init_name = Some g /\ num_args g = 0 /\ f_start g = address q init_name.
  Proof.
    destruct (init_place items n q) as (p & Ip & E1 & E2 & E3). pose proof (find_place p Ip) as F. rewrite E1 in F. cbn [fd_name] in F.
    eexists. split; [exact F|]. split.
    - unfold num_args. cbn [placed_function f_args]. rewrite E2. reflexivity.
    - unfold address. unfold function_find in F. rewrite F. reflexivity.
  Qed.

  Lemma find_nothing x : named items x = None -> x <> init_name -> function_find q x = None.
  Proof.
    intros Na Ni. destruct (function_find q x) as [g|] eqn:F; [exfalso|reflexivity]. unfold function_find in F. apply find_some in F. destruct F as [I E].
    apply bytes_eqb_eq in E. rewrite (bo_functions _ _ Bnd), (gd_funs _ _ _ _ (made items n prog q Gen Pok Bnd)) in I. fold sx in I. fold lay in I.
    apply in_map_iff in I. destruct I as (p & <- & I). cbn [placed_function f_name] in E.
    assert (K : In x (flat_map item_names (g_items items n))).
    { rewrite <- (layout_names (g_slots items n) (g_sizes items n) sx (g_ng items n) (g_items items n) 0 0). apply in_map_iff. exists p. split; [exact E|exact I]. }
    unfold g_items, add_init in K. rewrite flat_map_app, in_app_iff in K. destruct K as [K|K]; [|cbn in K; destruct K as [K|[]]; now apply Ni].
    apply in_flat_map in K. destruct K as (i & Ii & K). destruct i as [| |f args body lend]; cbn [item_names] in K; try contradiction.
    destruct K as [K|[]]. unfold named in Na. pose proof (find_none _ _ Na _ (in_functs items _ _ _ _ Ii)) as Nf. cbn [fst] in Nf.
    rewrite K, bytes_eqb_refl in Nf. discriminate.
  Qed.

  (** The vm holds the source state [st]. *)
  Definition vm_holds (st : sst) (extra : list aval) (v : vm aval aheap) : Prop :=
    vm_heap v = s_heap st /\ vm_glob v = map snd (s_glob st) ++ extra /\ vm_world v = s_world st.

  Definition ended_with (extra : list aval) (others : list (thread aval)) (r : aval + terr) (st : sst) (c : config) : Prop :=
    match r with
    | inl v => exists fr, fr_term fr = true /\ c = conf_ret extra others st fr [] [] v
    | inr x => exists a stk frs, c = conf_err extra others st x a stk frs
    end.
  Lemma ended_fin extra others r st c : ended_with extra others r st c -> c_fin c = true.
  Proof.
    destruct r; cbn [ended_with].
    - intros (fr & T & ->). cbn [conf_ret c_fin]. now rewrite T.
    - intros (a & stk & frs & ->). reflexivity.
  Qed.
  Lemma starting_running v g vs : running (f_start g) (rev (map passed vs)) [Frame (zlen vs) (f_start g) (f_start g) true] (starting q v g vs).
  Proof.
    constructor; try reflexivity. cbn [starting m_cur prepared t_frs]. unfold fresh_thread. cbn [t_frs].
    repeat f_equal. unfold zlen. now rewrite map_length.
  Qed.

  Lemma call_ev extra fuel f args body vs st v g : In (f, args, body) (functs items) -> function_find q (fd_name f) = Some g ->
    globals_of items st -> s_new st = [] -> vm_holds st extra v ->
    match run_call items (entry items q) sx (vm_sys q) fuel (f, args, body) (map passed vs) st with
    | Done (r, st') => globals_of items st' /\ num_args g = zlen vs /\
        ev q (ended_with extra (vm_threads v) (inl r) st') (core (starting q v g vs))
    | Error x st' => globals_of items st' /\ num_args g = zlen vs /\ ev q (ended_with extra (vm_threads v) (inr x) st') (core (starting q v g vs))
    | _ => True
    end.
  Proof.
    intros I F G N (V1 & V2 & V3). destruct (find_function f args body I) as (g' & F' & A & S). rewrite F in F'. inversion F'; subst g'.
    assert (L : zlen args = zlen vs -> num_args g = zlen vs) by (intros L; now rewrite A).
    set (fr := Frame (zlen vs) (f_start g) (f_start g) true).
    assert (Sp : fr_sp fr = zlen (@nil aval) + zlen (map passed vs)) by (cbn [fr fr_sp]; unfold zlen; rewrite map_length; reflexivity).
    assert (Ho : holds st extra (vm_threads v) (starting q v g vs)).
    { constructor; cbn [starting m_heap m_glob m_world m_pre m_post]; auto. }
    assert (Ru : running (address q (fd_name f)) (rev (map passed vs) ++ []) (fr :: []) (starting q v g vs)).
    { rewrite app_nil_r, <- S. apply starting_running. }
    pose proof (function_ev items n prog q Gen Pok Fit Bnd extra (vm_threads v) fuel f args body (map passed vs) st [] fr [] _ I G Sp Ho Ru) as H.
    fold sx in H.
    destruct (keys_kept items (entry items q) sx (vm_sys q) (vm_sys_keyed q) fuel _ st eq_refl) as (_ & _ & K & _).
    specialize (K (f, args, body) (map passed vs)).
    assert (Z : run_call items (entry items q) sx (vm_sys q) fuel (f, args, body) (map passed vs) st <> Undefined ->
                run_call items (entry items q) sx (vm_sys q) fuel (f, args, body) (map passed vs) st <> Timeout -> zlen args = zlen vs).
    { destruct fuel; [intros _ X; destruct X; reflexivity|]. rewrite run_call_S. replace (zlen (map passed vs)) with (zlen vs) by (unfold zlen; now rewrite map_length).
      destruct (zlen args =? zlen vs) eqn:E; [lia|]. intros X; destruct X; reflexivity. }
    destruct (run_call items (entry items q) sx (vm_sys q) fuel (f, args, body) (map passed vs) st) as [[r st']|x st'| |]; try exact Logic.I.
    - destruct H as [H1 H2]. split; [exact H1|]. split; [apply L, Z; discriminate|].
      apply H2. apply ev_now. exists fr. split; reflexivity.
    - split; [unfold globals_of in *; rewrite <- G; exact K|]. split; [apply L, Z; discriminate|].
      apply H. intros a stk frs. exists a, stk, frs. reflexivity.
  Qed.

  Lemma call_loop_any k : forall (s s' : machine) fuel, call_loop abs_ops q k s = Ok s' ->
    call_loop abs_ops q fuel s = Ok s' \/ (fuel < k)%nat /\ call_loop abs_ops q fuel s = Stuck SDiverge.
  Proof.
    induction k as [|k IH]; intros s s' fuel; cbn [call_loop].
    - destruct (t_fin (m_cur s) || negb (no_error (m_cur s))) eqn:E; [|discriminate]. intros R. left.
      destruct fuel; cbn [call_loop]; rewrite E; exact R.
    - destruct (t_fin (m_cur s) || negb (no_error (m_cur s))) eqn:E; [intros R; left; destruct fuel; cbn [call_loop]; rewrite E; exact R|].
      destruct fuel as [|fuel]; cbn [call_loop]; rewrite E; [intros _; right; split; [lia|reflexivity]|].
      destruct (resume abs_ops q _ s) as [[ok s1]|x l|x]; try discriminate. destruct ok; [|auto].
      intros R. destruct (IH s1 s' fuel R) as [D|[D1 D2]]; [now left|]. right. split; [lia|exact D2].
  Qed.

  Definition call_shows (r : aval + terr) (st : sst) : seen :=
    match r with inl v => SeenCall true (shown_value st v) None | inr e => SeenCall false ShNone (Some e) end.
  Lemma call_host extra r st' v g vs : num_args g = zlen vs ->
    ev q (ended_with extra (vm_threads v) r st') (core (starting q v g vs)) ->
    overflows q (starting q v g vs) \/
    exists N0 v', vm_holds (next_call st') extra v' /\ forall N,
      host_step q abs_ops N (HCallOnce g vs) v = Ok (call_shows r st', v') \/
      (N < N0)%nat /\ host_step q abs_ops N (HCallOnce g vs) v = Stuck SDiverge.
  Proof.
    intros A E. destruct (ev_evn q _ _ E) as [[k K]|K]; [right|left; exact (K _ eq_refl)].
    destruct (call_loop_evn q _ (ended_fin extra (vm_threads v) r st') k _ _ k K eq_refl (fun _ => eq_refl) (le_n _)) as (s' & L & D).
    exists k, (join s'). split.
    - unfold ended_with in D. destruct r as [x|e].
      + destruct D as (fr & T & D). injection D as D1 D2 D3 D4 D5 D6 D7 D8 D9 D10. repeat split; assumption.
      + destruct D as (a & stk & frs & D). injection D as D1 D2 D3 D4 D5 D6 D7 D8 D9 D10. repeat split; assumption.
    - intros N. rewrite (abs_call_once q N v g vs A).
      destruct (call_loop_any k _ s' N L) as [R|[R1 R2]].
      + left. rewrite R. cbn [bind]. unfold ended_with in D. destruct r as [x|e]; cbn [call_shows].
        * destruct D as (fr & T & D). injection D as D1 D2 D3 D4 D5 D6 D7 D8 D9 D10.
          rewrite D9. unfold return_value. rewrite D10, T, D7. cbn [orb bind]. unfold shown_value. rewrite D1. reflexivity.
        * destruct D as (a & stk & frs & D). injection D as D1 D2 D3 D4 D5 D6 D7 D8 D9 D10. rewrite D9. reflexivity.
      + right. split; [exact R1|]. rewrite R2. reflexivity.
  Qed.

  Lemma named_in x f : named items x = Some f -> In f (functs items) /\ fd_name (fst (fst f)) = x.
  Proof.
    unfold named. intros F. apply find_some in F. destruct F as [F1 F2]. split; [exact F1|]. now apply bytes_eqb_eq.
  Qed.
  Lemma session_run st calls xs st2 : session items (entry items q) sx (vm_sys q) st calls xs st2 ->
    forall extra v, globals_of items st -> s_new st = [] -> vm_holds st extra v ->
    exists N0, forall N, goes_deep q N v (map (call_op q) calls) \/
      (N < N0)%nat /\ abs_run q N (map (call_op q) calls) v = Stuck SDiverge \/
      exists v', abs_run q N (map (call_op q) calls) v = Ok (xs, v') /\ vm_holds st2 extra v'.
  Proof.
    induction 1 as [st|st x vs rest [[f args] body] n0 r st' xs st2 Na R S IH|st x vs rest [[f args] body] n0 e st' xs st2 Na R S IH];
      intros extra v G N V.
    - exists O. intros N1. right. right. exists v. split; [reflexivity|exact V].
    - destruct (named_in _ _ Na) as [I Nm]. cbn [fst] in Nm. destruct (find_function f args body I) as (g & F & _).
      pose proof (call_ev extra n0 f args body vs st v g I F G N V) as H. rewrite R in H. destruct H as (G' & A & E).
      rewrite Nm in F. cbn [map]. unfold call_op at 1 3 5. cbn [fst snd]. rewrite F.
      destruct (call_host extra (inl r) st' v g vs A E) as [D|(N1 & v1 & V1 & H1)]; [exists O; intros N2; left; now apply deep_call|].
      destruct (IH extra v1 G' eq_refl V1) as (N2 & H2). exists (Nat.max N1 N2). intros N3.
      destruct (H1 N3) as [D|[D1 D2]].
      + destruct (H2 N3) as [L|[[L1 L2]|[v2 [L Hv]]]].
        * left. eapply deep_later; [exact D|exact L].
        * right. left. split; [lia|]. unfold abs_run in *. cbn [map host_run]. rewrite D. cbn [bind]. rewrite L2. reflexivity.
        * right. right. exists v2. split; [|exact Hv]. unfold abs_run in *. cbn [map host_run]. rewrite D. cbn [bind]. rewrite L. reflexivity.
      + right. left. split; [lia|]. unfold abs_run. cbn [map host_run]. rewrite D2. reflexivity.
    - destruct (named_in _ _ Na) as [I Nm]. cbn [fst] in Nm. destruct (find_function f args body I) as (g & F & _).
      pose proof (call_ev extra n0 f args body vs st v g I F G N V) as H. rewrite R in H. destruct H as (G' & A & E).
      rewrite Nm in F. cbn [map]. unfold call_op at 1 3 5. cbn [fst snd]. rewrite F.
      destruct (call_host extra (inr e) st' v g vs A E) as [D|(N1 & v1 & V1 & H1)]; [exists O; intros N2; left; now apply deep_call|].
      destruct (IH extra v1 G' eq_refl V1) as (N2 & H2). exists (Nat.max N1 N2). intros N3.
      destruct (H1 N3) as [D|[D1 D2]].
      + destruct (H2 N3) as [L|[[L1 L2]|[v2 [L Hv]]]].
        * left. eapply deep_later; [exact D|exact L].
        * right. left. split; [lia|]. unfold abs_run in *. cbn [map host_run]. rewrite D. cbn [bind]. rewrite L2. reflexivity.
        * right. right. exists v2. split; [|exact Hv]. unfold abs_run in *. cbn [map host_run]. rewrite D. cbn [bind]. rewrite L. reflexivity.
      + right. left. split; [lia|]. unfold abs_run. cbn [map host_run]. rewrite D2. reflexivity.
  Qed.

  (** ** call_init in a new vm *)
  Definition spare (k : Z) : list aval := left_over items (zrepeat ANone k).
  Lemma init_call_ev k w g fuel b st : function_find q init_name = Some g ->
    init_result (initial items (entry items q) sx (vm_sys q) fuel (fresh_state w)) = Some (b, st) ->
    globals_of items st /\
    exists r, b = match r with inl _ => true | inr _ => false end /\
      ev q (ended_with (spare k) [] r st) (core (starting q (abs_start k w) g [])).
  Proof.
    intros F R. destruct find_init as (g' & F' & A & S). rewrite F in F'. inversion F'; subst g'.
    set (fr := Frame 0 (f_start g) (f_start g) true).
    assert (Ru : running (address q init_name) [] (fr :: []) (starting q (abs_start k w) g [])).
    { rewrite <- S. exact (starting_running (abs_start k w) g []). }
    pose proof (init_ev items n prog q Gen Pok Fit Bnd [] fuel (fresh_state w) [] fr [] (starting q (abs_start k w) g [])
      eq_refl eq_refl eq_refl eq_refl eq_refl Ru) as H. fold sx in H.
    pose proof (init_keys items (entry items q) sx (vm_sys q) (vm_sys_keyed q) fuel items _ (with_glob (fresh_state w) (global_vars items)) eq_refl) as K.
    fold (initial items (entry items q) sx (vm_sys q) fuel (fresh_state w)) in K.
    change (m_glob (starting q (abs_start k w) g [])) with (zrepeat ANone k) in H. fold (spare k) in H.
    destruct (initial items (entry items q) sx (vm_sys q) fuel (fresh_state w)) as [st'|x st'| |]; cbn [init_result] in R; try discriminate; inversion R; subst.
    - destruct H as [H1 H2]. split; [exact H1|]. exists (inl (AS (SInt 0))). split; [reflexivity|].
      apply H2. apply ev_now. exists fr. split; reflexivity.
    - split; [exact K|]. exists (inr x). split; [reflexivity|]. apply H. intros a stk frs. exists a, stk, frs. reflexivity.
  Qed.
  Lemma init_host k w g fuel b st : function_find q init_name = Some g ->
    init_result (initial items (entry items q) sx (vm_sys q) fuel (fresh_state w)) = Some (b, st) ->
    globals_of items st /\
    (overflows q (starting q (abs_start k w) g []) \/
     exists b' v, (forall N, host_step q abs_ops N HCallInit (abs_start k w) = Ok (SeenFlag b', v)) /\
       (init_done v -> b' = b /\ vm_holds (next_call st) (spare k) v)).
  Proof.
    intros F R. destruct (init_call_ev k w g fuel b st F R) as (G & r & -> & E). split; [exact G|].
    destruct (ev_evn q _ _ E) as [[j K]|K]; [right|left; exact (K _ eq_refl)].
    destruct (resume_evn q _ (ended_fin (spare k) [] r st) j _ (starting q (abs_start k w) g []) (Z.to_nat 8192) K eq_refl eq_refl eq_refl) as (s' & L & D).
    destruct find_init as (g' & F' & A & S). rewrite F in F'. inversion F'; subst g'.
    assert (L' : resume abs_ops q (Z.to_nat 8192) (Mst (vm_heap (abs_start k w)) (vm_glob (abs_start k w)) (vm_world (abs_start k w)) [] (prepared fresh_thread g []) []) = Ok (no_error (m_cur s'), s')) by exact L.
    assert (Po : m_post s' = []).
    { assert (F0 : t_fin (m_cur (starting q (abs_start k w) g [])) = false) by reflexivity.
      destruct (resume_inv _ _ _ _ _ _ _ _ F0 L) as [L1 _].
      destruct (loop_executed _ _ _ _ _ _ _ L1) as (i & _ & Ex & _).
      destruct (executed_others _ _ _ _ _ _ _ Ex) as (R1 & _). cbn in R1. now inversion R1. }
    exists (no_error (m_cur s')), (join s'). split.
    - intros N. cbn [host_step]. unfold call_init. fold init_name. rewrite F.
      change (@nil aval) with (map passed []). rewrite abs_thread by exact A. cbn [bind].
      unfold vm_resume. cbn [vm_threads vm_heap vm_glob vm_world]. change (List.length _) with 1%nat.
      cbn [vm_round map]. change (negb _) with false. cbv iota. change (t_fin _ || _) with false. cbv iota.
      change (vm_threads (abs_start k w)) with (@nil (thread aval)). rewrite L'.
      destruct (no_error (m_cur s')) eqn:NE; [|reflexivity]. rewrite Po. cbn [vm_round bind]. unfold join. rewrite Po. reflexivity.
    - intros (young & t & T & Tf). unfold join in T. cbn [vm_threads] in T. rewrite Po in T.
      apply app_inj_tail in T. destruct T as [_ T]. subst t.
      destruct D as [D|(D1 & _)]; [|cbn [core c_fin] in D1; congruence].
      unfold ended_with in D. destruct r as [x|e].
      + destruct D as (fr & T & D). injection D as D1 D2 D3 D4 D5 D6 D7 D8 D9 D10. split; [unfold no_error; now rewrite D9|]. repeat split; assumption.
      + destruct D as (a & stk & frs & D). injection D as D1 D2 D3 D4 D5 D6 D7 D8 D9 D10. split; [unfold no_error; now rewrite D9|]. repeat split; assumption.
  Qed.
End Calls.
