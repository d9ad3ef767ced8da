(** Resetting a vm, the handlers, and the line reported for an error: C92 - C95. *)
From Coq Require Import ZArith List Bool Lia String ZifyBool.
From Verif Require Import PropertiesRun PropertiesSched.
From Verif Require Import Base BaseFacts F32 Instr InstrSpec Program VM AbsHeap Gc GcSpec Refine Host HostProofs Demo VmSpec VmFacts RunFacts
  Source Lexer Ast Parser Sema SemaSpec Optimize Codegen Build BuildSpec SrcSem OptSpec OptFacts SemaIds CgCode CgLayout CgSlots CgStep CgSim
  CgSpec CgLink CgRun CgFlow CgWell ParseFine RunSpec OptRun HostRun PropertiesOpt PropertiesCodegen PropertiesBuild Events.
Import ListNotations.
Open Scope Z_scope.
Open Scope list_scope.

(** ** C92: reset and initialise *)

(** The code of @init starts by clearing the globals. *)
Lemma init_clears items n prog q : generate items n = Ok prog -> program_ok items n -> fits prog -> bound prog q ->
  exists g, function_find q init_name = Some g /\ num_args g = 0 /\
    at_ins q (f_start g) (I1 INS_GLOBALS (zlen (global_vars items))).
Proof.
  intros Gen Pok Fit Bnd. destruct (find_init items n prog q Gen Pok Bnd) as (g & F & N & S). exists g. split; [exact F|]. split; [exact N|]. rewrite S.
  destruct (init_place items n q) as (p & Ip & E1 & E2 & E3).
  pose proof (place_code_at items n prog q Gen Pok Fit Bnd p Ip) as C.
  pose proof (address_place items n prog q Gen Pok Bnd p Ip) as Ad. rewrite E1 in Ad. cbn [fd_name] in Ad. rewrite Ad.
  pose proof (q_len items n prog q Gen Pok Bnd) as QL.
  unfold g_code_of, pl_code, cfunc in C. rewrite E1, E2, E3 in C.
  change (prologue (g_sizes items n) (g_ng items n) (FDecl n init_name None false false 0)) with [SI (I1 INS_GLOBALS (g_ng items n))] in C.
  cbn [app] in C. apply code_at_cons in C. destruct C as [C1 _]. apply (code_at_ins q _ (sys_index q) QL) in C1. cbn [linked_ins] in C1.
  rewrite ng_count in C1. exact C1.
Qed.


Lemma globals_ins {P H} (ops : hops P H) q k h g1 g2 w pre t post :
  at_ins q (t_pc t) (I1 INS_GLOBALS k) -> (k <> 0 \/ g1 = g2) ->
  step_imp ops q (Mst h g1 w pre t post) = step_imp ops q (Mst h g2 w pre t post).
Proof.
  intros A [K| ->]; [|reflexivity].
  rewrite !(step_at ops q _ (I1 INS_GLOBALS k)) by exact A. cbn [ins_op do_ins]. unfold mbind.
  rewrite !(operand1_at q _ INS_GLOBALS k) by exact A.
  replace (k =? 0) with false by lia. destruct (k <? 0); reflexivity.
Qed.

Lemma loop_globals {P H} (ops : hops P H) q k c h g1 g2 w pre t post :
  at_ins q (t_pc t) (I1 INS_GLOBALS k) -> (k <> 0 \/ g1 = g2) -> h_should ops h = false ->
  resume_loop ops q (S c) (Mst h g1 w pre t post) = resume_loop ops q (S c) (Mst h g2 w pre t post).
Proof.
  intros A K Sh. cbn [resume_loop]. unfold mbind at 1 4. unfold tick_gc. cbn [m_heap]. rewrite Sh.
  unfold mbind at 1 3. rewrite (globals_ins ops q k h g1 g2) by assumption. reflexivity.
Qed.

Lemma init_forgets {P H} (ops : hops P H) q g k h g1 g2 w : function_find q init_name = Some g -> num_args g = 0 ->
  at_ins q (f_start g) (I1 INS_GLOBALS k) -> (k <> 0 \/ g1 = g2) -> h_should ops h = false ->
  call_init ops q (Vm h g1 w []) = call_init ops q (Vm h g2 w []).
Proof.
  intros F N A K Sh. unfold call_init. change (bs "@init") with init_name. rewrite F.
  unfold vm_new_thread, new_thread. rewrite N. change (0 =? zlen (@nil P)) with true. cbv iota.
  unfold mbind, add_thread, ret. cbn [copy_all]. unfold ret. cbn [m_heap m_glob m_world m_pre m_post bind vm_heap vm_glob vm_world vm_threads app m_cur].
  unfold vm_resume. cbn [vm_threads vm_heap vm_glob vm_world List.length].
  assert (X : exists c, Z.to_nat 8192 = S c) by (exists (pred (Z.to_nat 8192)); lia).
  destruct X as [c ->]. cbn [vm_round].
  change (t_waits (prepared fresh_thread g []) =? 0) with true. cbn [negb].
  change (t_fin (prepared (@fresh_thread P) g []) || negb (no_error (prepared (@fresh_thread P) g []))) with false. cbv iota.
  assert (R : resume ops q (S c) (Mst h g1 w [] (prepared fresh_thread g []) []) = resume ops q (S c) (Mst h g2 w [] (prepared fresh_thread g []) [])).
  { unfold resume. unfold mbind at 1 4, mget. cbn [m_cur]. change (t_fin (prepared (@fresh_thread P) g [])) with false. cbv iota.
    unfold mbind at 1 3, mod_cur. cbn [m_heap m_glob m_world m_pre m_post m_cur]. unfold mbind.
    rewrite (loop_globals ops q k c h g1 g2) by assumption. reflexivity. }
  rewrite R. reflexivity.
Qed.

(** After reset, initialising the vm gives what initialising a new vm gives, and
    so does everything that follows: a program that declares a global variable (or
    a vm that has none) starts again from nothing. *)
Theorem C92_reset_then_init : forall fuel fs addr on regs m p q items n,
  build fuel fs addr on regs m = Ok (Some p) -> fits p -> bound p q ->
  analysed fuel fs addr regs m items n -> (on = true -> unshared items) ->
  forall v, vm_glob v = [] \/ global_vars items <> [] ->
  forall c, c_policy c empty_heap = false ->
  forall N l, host_gc q N ((c, HCallInit) :: l) (vm_reset v) = host_gc q N ((c, HCallInit) :: l) (vm_start 0 (vm_world v)).
Proof.
  intros fuel fs addr on regs m p q items n B Fi Bo (src & m' & E1 & E2) U v G c Po N l.
  destruct (build_parts _ _ _ _ _ _ _ B) as (src0 & m0 & items0 & n0 & items' & n' & F1 & F2 & P & O & P' & Ge).
  rewrite E1 in F1. inversion F1; subst src0 m0. rewrite E2 in F2. inversion F2; subst items0 n0.
  destruct (optimize_chain on items n items' n' (fun id => run_sema_ids _ _ _ _ id E2) U O) as (a & b & B1 & B2 & B3).
  assert (Gv : global_vars items = global_vars items').
  { rewrite (global_vars_better _ _ B1), (global_vars_better _ _ B2). apply (global_vars_better _ _ B3). }
  destruct (init_clears items' n' p q Ge P' Fi Bo) as (g & F & Na & A). rewrite <- Gv in A.
  unfold host_gc. cbn [map fst snd host_run host_step]. unfold vm_reset, vm_start, gc_reset.
  rewrite (init_forgets (cfg_ops c) q g (zlen (global_vars items)) empty_heap (vm_glob v) (zrepeat None 0)); auto.
  destruct G as [->|G]; [now right|left]. destruct (global_vars items) as [|x r]; [congruence|]. rewrite zlen_cons. pose proof (zlen_nonneg r). lia.
Qed.

(** ** C93: reset alone *)

Lemma trace_dangles cap f rec : forall l, Exists (fun x => x <> None) l ->
  trace_list cap rec empty_heap f l = Stuck SDangling.
Proof.
  induction 1 as [x l X|x l E IH]; cbn [trace_list].
  - destruct x as [a|]; [reflexivity|congruence].
  - destruct x as [a|]; [reflexivity|]. cbn [trace1 bind]. rewrite IH. reflexivity.
Qed.
Lemma collect_dangles c (v : vm ptr heap) : Exists (fun x : ptr => x <> None) (vm_glob v) -> vm_heap v = empty_heap -> c_fuel c <> O ->
  gc_collect_vm (cfg_ops c) v = Stuck SDangling.
Proof.
  intros E H F. unfold gc_collect_vm, roots_of, cfg_ops, gc_ops_with. cbn [h_collect]. rewrite H. unfold Gc.collect. cbn [trace_roots].
  destruct (c_fuel c) as [|k]; [congruence|]. cbn [trace]. rewrite trace_dangles by exact E. reflexivity.
Qed.

(** A vm that held a value in some global, once reset, uses memory that no longer
    holds a value: at the next collection, and so at the next call of any function,
    with or without arguments. *)
Theorem C93_reset_dangles : forall q (v : vm ptr heap), Exists (fun x : ptr => x <> None) (vm_glob v) ->
  forall c, c_fuel c <> O -> forall N,
  host_step q (cfg_ops c) N HCollect (vm_reset v) = Stuck SDangling /\
  forall f, num_args f = 0 -> host_step q (cfg_ops c) N (HCallOnce f []) (vm_reset v) = Stuck SDangling.
Proof.
  intros q v E c F N. split.
  - cbn [host_step]. rewrite collect_dangles; auto.
  - intros f A. cbn [host_step new_args bind]. unfold call_once, vm_new_thread, new_thread. rewrite A. change (0 =? zlen (@nil ptr)) with true. cbv iota.
    unfold mbind, add_thread, ret. cbn [copy_all]. unfold ret, with_heap, vm_reset. cbn [m_heap m_glob m_world m_pre m_post bind vm_heap vm_glob vm_world vm_threads app m_cur].
    rewrite collect_dangles; auto.
Qed.

(** A global that held 5 before the reset is the argument of the next call. *)
Definition reset_text : string := "var g = 5
function get(x)
  return g
end
"%string.
Definition prog_of (t : string) : program_t :=
  match build 5 (fun _ => None) Z.of_nat false [] (snd (sm_load_from_string [] (bs t))) with
  | Ok (Some p) => p | _ => Prog [] [] [] [] [] [] end.
Definition fun_of (p : program_t) (name : string) : function_t :=
  match function_find p (bs name) with Some f => f | None => Func [] 0 0 [] [] end.
Definition reset_prog : program_t := prog_of reset_text.
Definition shipped : gc_cfg := Host.Cfg arena_size 10 (should_collect arena_size).
Definition reset_vm : vm ptr heap :=
  match host_gc reset_prog 500 [(shipped, HCallInit)] (vm_start 0 world0) with Ok (_, v) => v | _ => vm_start 0 world0 end.
Theorem C93_global_becomes_argument :
  build 5 (fun _ => None) Z.of_nat false [] (snd (sm_load_from_string [] (bs reset_text))) = Ok (Some reset_prog) /\
  (exists v, host_gc reset_prog 500 [(shipped, HCallInit)] (vm_start 0 world0) = Ok ([SeenFlag true], v)) /\
  (exists v, host_gc reset_prog 500 [(shipped, HCallOnce (fun_of reset_prog "get") [Some (SInt 42)])] reset_vm =
     Ok ([SeenCall true (ShScalar (SInt 5)) None], v)) /\
  (exists v, host_gc reset_prog 500 [(shipped, HCallOnce (fun_of reset_prog "get") [Some (SInt 42)])] (vm_reset reset_vm) =
     Ok ([SeenCall true (ShScalar (SInt 42)) None], v)).
Proof.
  split; [vm_compute; reflexivity|]. split; [eexists; vm_compute; reflexivity|]. split; [eexists; vm_compute; reflexivity|].
  eexists. vm_compute. reflexivity.
Qed.

(** ** C94: the handlers *)

Section Handlers.
  Context {P H : Type}.
  Variable ops : hops P H.
  Variable prog : program_t.
  Notation mst := (mst P H).

  Lemma loop_same c : forall s, bind (resume_loop_ev ops prog c s) (fun '(_, s') => Ok (tt, s')) = resume_loop ops prog c s.
  Proof.
    induction c as [|c IH]; intros s; cbn [resume_loop_ev resume_loop]; [reflexivity|].
    unfold mbind. destruct (tick_gc ops s) as [[[] s1]|?|?]; cbn [bind]; try reflexivity.
    destruct (step_imp ops prog s1) as [[[] s2]|?|?]; cbn [bind]; try reflexivity.
    unfold mget. destruct (t_fin (m_cur s2)); [reflexivity|]. destruct (t_hal (m_cur s2)); [reflexivity|]. apply IH.
  Qed.
  Lemma resume_same c s : bind (resume_ev ops prog c s) (fun '(_, ok, s') => Ok (ok, s')) = resume ops prog c s.
  Proof.
    unfold resume_ev, resume. unfold mbind at 1, mget. destruct (t_fin (m_cur s)); [reflexivity|]. unfold mbind at 1, mod_cur, mbind.
    rewrite <- loop_same. destruct (resume_loop_ev _ _ _ _) as [[ev s1]|?|?]; reflexivity.
  Qed.
  Lemma round_same n c : forall h g w pre post,
    bind (vm_round_ev ops prog n c h g w pre post) (fun '(_, ok, v) => Ok (ok, v)) = vm_round ops prog n c h g w pre post.
  Proof.
    induction n as [|n IH]; intros h g w pre [|t post]; cbn [vm_round_ev vm_round]; try reflexivity.
    destruct (negb (t_waits t =? 0)).
    { destruct (chk32 (t_waits t - 1)); cbn [bind]; auto. }
    destruct (t_fin t || negb (no_error t)); [apply IH|].
    rewrite <- resume_same. destruct (resume_ev ops prog c (Mst h g w pre t post)) as [[[ev ok] s]|?|?]; cbn [bind]; try reflexivity.
    destruct ok; [|destruct (no_error (m_cur s)); reflexivity].
    rewrite <- IH. destruct (vm_round_ev _ _ _ _ _ _ _ _ _) as [[[ev' ok'] v]|?|?]; reflexivity.
  Qed.
  Lemma call_loop_same n : forall s, bind (call_loop_ev ops prog n s) (fun '(_, s') => Ok s') = call_loop ops prog n s.
  Proof.
    induction n as [|n IH]; intros s; cbn [call_loop_ev call_loop]; destruct (t_fin (m_cur s) || negb (no_error (m_cur s))); try reflexivity.
    rewrite <- resume_same. destruct (resume_ev ops prog _ s) as [[[ev ok] s']|?|?]; cbn [bind]; try reflexivity.
    destruct ok; [|reflexivity]. rewrite <- IH. destruct (call_loop_ev _ _ _ _) as [[ev' s'']|?|?]; reflexivity.
  Qed.

  (** What a run of a thread tells the handlers: nothing while it is unfinished. *)
  Definition told (t : thread P) : list (event P) :=
    if t_fin t then match t_err t with None => [OnFinish t] | Some _ => [OnError t; OnFinish t] end else [].
  Lemma fire_told t : t_fin t = true -> fire t = told t.
  Proof. intros F. unfold fire, told, no_error. rewrite F. destruct (t_err t); reflexivity. Qed.
  Lemma loop_told c : forall s ev s', t_fin (m_cur s) = false -> resume_loop_ev ops prog c s = Ok (ev, s') -> ev = told (m_cur s').
  Proof.
    induction c as [|c IH]; intros s ev s' F E; cbn [resume_loop_ev] in E.
    - inversion E; subst. unfold told. now rewrite F.
    - destruct (tick_gc ops s) as [[u s1]|?|?]; cbn [bind] in E; try discriminate E.
      destruct (step_imp ops prog s1) as [[u2 s2]|?|?]; cbn [bind] in E; try discriminate E.
      destruct (t_fin (m_cur s2)) eqn:F2; [inversion E; subst; now apply fire_told|].
      destruct (t_hal (m_cur s2)); [inversion E; subst; unfold told; now rewrite F2|]. eapply IH; eassumption.
  Qed.
  Lemma resume_told c s ev ok s' : resume_ev ops prog c s = Ok (ev, ok, s') ->
    (t_fin (m_cur s) = true -> ev = [] /\ ok = false /\ s' = s) /\
    (t_fin (m_cur s) = false -> ev = told (m_cur s') /\ ok = no_error (m_cur s')).
  Proof.
    unfold resume_ev. destruct (t_fin (m_cur s)) eqn:F; intros E; split; intros F'; try congruence.
    - inversion E; auto.
    - destruct (resume_loop_ev _ _ _ _) as [[ev1 s1]|?|?] eqn:L; cbn [bind] in E; inversion E; subst. split; [|reflexivity].
      eapply loop_told; [|exact L]. exact F.
  Qed.

  (** The handlers change nothing: resume, vm.resume and call_once do what they do
      without handlers. *)
  Theorem C94_handlers_only_watch :
    (forall c s, bind (resume_ev ops prog c s) (fun '(_, ok, s') => Ok (ok, s')) = resume ops prog c s) /\
    (forall c v, bind (vm_resume_ev ops prog c v) (fun '(_, ok, v') => Ok (ok, v')) = vm_resume ops prog c v) /\
    (forall n v f argv, bind (call_once_ev ops prog n v f argv) (fun '(_, r, v') => Ok (r, v')) = call_once ops prog n v f argv).
  Proof.
    split; [apply resume_same|]. split; [intros; apply round_same|]. intros n v f argv. unfold call_once_ev, call_once.
    destruct (vm_new_thread ops v f argv) as [[ok v1]|?|?]; cbn [bind]; try reflexivity.
    destruct (gc_collect_vm ops v1) as [v2|?|?]; cbn [bind]; try reflexivity.
    destruct (negb ok); [reflexivity|]. destruct (split 0 v2) as [s|?|?]; cbn [bind]; try reflexivity.
    rewrite <- call_loop_same. destruct (call_loop_ev ops prog n s) as [[ev s']|?|?]; cbn [bind]; try reflexivity.
    destruct (t_err (m_cur s')); [reflexivity|]. destruct (return_value ops (m_cur s')); reflexivity.
  Qed.

  (** The slice of a thread that finishes calls on_thread_finish once, after
      on_thread_error if it failed; every other slice calls nothing. *)
  Theorem C94_slice : forall c s ev ok s', resume_ev ops prog c s = Ok (ev, ok, s') ->
    ev = if t_fin (m_cur s) then []
         else if t_fin (m_cur s') then
           match t_err (m_cur s') with
           | None => [OnFinish (m_cur s')]
           | Some _ => [OnError (m_cur s'); OnFinish (m_cur s')]
           end
         else [].
  Proof. intros c s ev ok s' E. apply resume_told in E. destruct E as [A B]. destruct (t_fin (m_cur s)); [now apply A|now apply B]. Qed.

  Lemma finished_history s evs s' : history ops prog s evs s' -> t_fin (m_cur s) = true -> evs = [] /\ t_fin (m_cur s') = true.
  Proof.
    induction 1 as [s|n s ev ok s1 evs s2 R Hi IH|s ok s1 evs s2 R Hi IH|n s ok s1 evs s2 R Hi IH|s s1 evs s2 F E Hi IH]; intros Fi.
    - auto.
    - apply resume_told in R. destruct R as [A _]. destruct (A Fi) as (-> & _ & ->). auto.
    - unfold step_inst in R. unfold mbind at 1, mget in R. rewrite Fi in R. unfold ret in R. inversion R; subst. auto.
    - unfold step_line in R. unfold mbind at 1, mget in R. rewrite Fi in R. unfold ret in R. inversion R; subst. auto.
    - apply IH. congruence.
  Qed.

  (** Over the whole life of a thread, whichever way it is run, on_thread_finish is
      called at most once, with the finished thread, on_thread_error only just
      before it and only with an error. *)
  Theorem C94_once_per_thread : forall s evs s', history ops prog s evs s' ->
    evs = [] \/
    exists t, t_fin t = true /\ (t_err t = None /\ evs = [OnFinish t] \/ t_err t <> None /\ evs = [OnError t; OnFinish t]).
  Proof.
    induction 1 as [s|n s ev ok s1 evs s2 R Hi IH|s ok s1 evs s2 R Hi IH|n s ok s1 evs s2 R Hi IH|s s1 evs s2 F E Hi IH]; auto.
    apply resume_told in R. destruct R as [A B]. destruct (t_fin (m_cur s)) eqn:Fi.
    - destruct (A eq_refl) as (-> & _ & ->). exact IH.
    - destruct (B eq_refl) as [-> _]. unfold told. destruct (t_fin (m_cur s1)) eqn:F1; [|exact IH].
      destruct (finished_history _ _ _ Hi F1) as [-> _]. right. exists (m_cur s1). split; [exact F1|].
      destruct (t_err (m_cur s1)); [right; split; [congruence|]|left; split; [reflexivity|]]; reflexivity.
  Qed.

  (** A thread that fails is finished. *)
  Lemma loop_fails c : forall s ev s', t_err (m_cur s) = None -> resume_loop_ev ops prog c s = Ok (ev, s') ->
    t_err (m_cur s') = None \/ t_fin (m_cur s') = true.
  Proof.
    induction c as [|c IH]; intros s ev s' N E; cbn [resume_loop_ev] in E.
    - inversion E; subst. now left.
    - destruct (tick_gc ops s) as [[[] s1]|?|?] eqn:T; cbn [bind] in E; try discriminate E.
      destruct (step_imp ops prog s1) as [[u2 s2]|?|?] eqn:St; cbn [bind] in E; try discriminate E.
      destruct (tick_facts _ _ _ _ T) as (_ & _ & (l & Ec) & _).
      assert (N1 : t_err (m_cur s1) = None) by (rewrite Ec; exact N).
      pose proof (sf_err _ _ _ (step_weak _ _ _ _ _ St) N1) as W.
      destruct (t_fin (m_cur s2)) eqn:F2; [inversion E; subst; now right|].
      destruct W as [W|W]; [|congruence].
      destruct (t_hal (m_cur s2)); [inversion E; subst; now left|]. eapply IH; eassumption.
  Qed.
  Lemma resume_fails c s ev ok s' : t_err (m_cur s) = None -> t_fin (m_cur s) = false -> resume_ev ops prog c s = Ok (ev, ok, s') ->
    t_err (m_cur s') = None \/ t_fin (m_cur s') = true.
  Proof.
    intros N F. unfold resume_ev. rewrite F. destruct (resume_loop_ev _ _ _ _) as [[ev1 s1]|?|?] eqn:L; cbn [bind]; intros E; inversion E; subst.
    eapply loop_fails; [|exact L]. exact N.
  Qed.
  Lemma call_loop_told n : forall s ev s', t_err (m_cur s) = None -> t_fin (m_cur s) = false -> call_loop_ev ops prog n s = Ok (ev, s') ->
    t_fin (m_cur s') = true /\ ev = told (m_cur s').
  Proof.
    induction n as [|n IH]; intros s ev s' N F E; cbn [call_loop_ev] in E; rewrite F in E; unfold no_error in E at 1; rewrite N in E; cbn [orb negb] in E;
      [discriminate E|].
    destruct (resume_ev ops prog _ s) as [[[ev1 ok] s1]|?|?] eqn:R; cbn [bind] in E; try discriminate E.
    pose proof (resume_fails _ _ _ _ _ N F R) as W. apply resume_told in R. destruct R as [_ R]. destruct (R F) as [-> ->].
    destruct (t_fin (m_cur s1)) eqn:F1.
    - unfold no_error in E. destruct (t_err (m_cur s1)) eqn:E1; [inversion E; subst; auto|].
      destruct n as [|n]; cbn [call_loop_ev] in E; rewrite F1 in E; cbn [orb bind] in E; inversion E; subst; rewrite app_nil_r; auto.
    - destruct W as [W|W]; [|congruence]. unfold no_error in E. rewrite W in E.
      destruct (call_loop_ev ops prog n s1) as [[ev2 s2]|?|?] eqn:L; cbn [bind] in E; try discriminate E. inversion E; subst.
      unfold told at 1. rewrite F1. cbn [app]. eapply IH; eassumption.
  Qed.

  (** A call that returns has called on_thread_finish exactly once, after
      on_thread_error if it failed, with the thread of the call. *)
  Theorem C94_call : forall n v f argv ev ok p e v', call_once_ev ops prog n v f argv = Ok (ev, (ok, p, e), v') ->
    exists t, In t (vm_threads v') /\ t_fin t = true /\ t_err t = e /\
      ev = match e with None => [OnFinish t] | Some _ => [OnError t; OnFinish t] end.
  Proof.
    intros n v f argv ev ok p e v' E. unfold call_once_ev in E.
    destruct (vm_new_thread ops v f argv) as [[k v1]|?|?] eqn:T; cbn [bind] in E; try discriminate E.
    destruct (gc_collect_vm ops v1) as [v2|?|?] eqn:G; cbn [bind] in E; try discriminate E.
    destruct k; cbn [negb] in E; [|discriminate E].
    assert (X : exists s, split 0 v2 = Ok s /\ t_err (m_cur s) = None /\ t_fin (m_cur s) = false).
    { unfold vm_new_thread in T. destruct (new_thread ops f argv _) as [[b s0]|?|?] eqn:Nt; try discriminate T.
      assert (Hd : exists args, m_pre s0 = [prepared fresh_thread f args]).
      { unfold new_thread in Nt. destruct (num_args f =? zlen argv); [|unfold ret in Nt; inversion Nt; subst; inversion T].
        apply mbind_ok in Nt. destruct Nt as (args & s1 & E1 & E2). unfold mbind, add_thread, ret in E2.
        assert (m_pre s1 = []).
        { clear - E1. change (@nil (thread P)) with (m_pre (Mst (vm_heap v) (vm_glob v) (vm_world v) [] fresh_thread (vm_threads v))).
          revert E1. generalize (Mst (vm_heap v) (vm_glob v) (vm_world v) [] fresh_thread (vm_threads v)). revert args s1.
          induction argv as [|a l IH]; intros args s1 s E; cbn [copy_all] in E; [unfold ret in E; now inversion E|].
          apply mbind_ok in E. destruct E as (x & s2 & A1 & A2). apply mbind_ok in A2. destruct A2 as (y & s3 & A2 & A3).
          unfold ret in A3. inversion A3; subst. rewrite (IH _ _ _ A2). clear - A1.
          unfold gc_copy in A1. apply mbind_ok in A1. destruct A1 as (z & s3 & B1 & B2).
          unfold deref in B1. apply lift_ok in B1. destruct B1 as [_ ->].
          destruct z; cbn in B2; unfold ret, new_s, lift, mbind in B2; try discriminate B2; try (now inversion B2).
          destruct (h_newS ops (m_heap s) s0) as [[h' q]|?|?]; try discriminate B2; now inversion B2. }
        inversion E2; subst. cbn [m_pre]. rewrite H0. eauto. }
      inversion T; subst. destruct Hd as (args & Hd). unfold gc_collect_vm in G. cbn [vm_heap vm_glob vm_threads vm_world] in G.
      destruct (h_collect ops _ _) as [[h' [|g rs]]|?|?]; try discriminate G. inversion G; subst. rewrite Hd. cbn [app set_stacks].
      unfold split. cbn [vm_threads skipn]. destruct rs as [|r rs]; eexists; (split; [reflexivity|]); split; reflexivity. }
    destruct X as (s & Sp & Er & Fi). rewrite Sp in E. cbn [bind] in E.
    destruct (call_loop_ev ops prog n s) as [[ev1 s']|?|?] eqn:L; cbn [bind] in E; try discriminate E.
    destruct (call_loop_told _ _ _ _ Er Fi L) as [F1 ->].
    exists (m_cur s'). unfold told in E. rewrite F1 in E. destruct (t_err (m_cur s')) eqn:E1.
    - inversion E; subst. split; [apply in_or_app; right; left; reflexivity|]. auto.
    - destruct (return_value ops (m_cur s')) as [r|?|?]; cbn [bind] in E; try discriminate E. inversion E; subst.
      split; [apply in_or_app; right; left; reflexivity|]. auto.
  Qed.

  Definition quiet_finish (e : event P) : Prop := exists t, e = OnFinish t /\ t_fin t = true /\ t_err t = None.
  Lemma told_quiet t : t_err t = None -> Forall quiet_finish (told t).
  Proof. intros N. unfold told. rewrite N. destruct (t_fin t) eqn:F; constructor; [|constructor]. exists t. auto. Qed.

  (** A round that succeeds calls on_thread_error never; a round that fails ends
      with the calls for the thread that failed. *)
  Theorem C94_round : forall c v ev ok v', vm_resume_ev ops prog c v = Ok (ev, ok, v') ->
    if ok then Forall quiet_finish ev
    else exists before t, ev = before ++ [OnError t; OnFinish t] /\ Forall quiet_finish before /\
           t_err t <> None /\ t_fin t = true /\ In t (vm_threads v').
  Proof.
    intros c v. unfold vm_resume_ev. generalize (List.length (vm_threads v)). intros n.
    generalize (vm_heap v) (vm_glob v) (vm_world v) (@nil (thread P)) (vm_threads v). induction n as [|n IH]; intros h g w pre [|t post] ev ok v' E; cbn [vm_round_ev] in E;
      try discriminate E; try (inversion E; subst; constructor; fail).
    destruct (negb (t_waits t =? 0)).
    { destruct (chk32 (t_waits t - 1)); cbn [bind] in E; try discriminate E. eapply IH; exact E. }
    destruct (t_fin t || negb (no_error t)) eqn:D; [eapply IH; exact E|].
    apply orb_false_iff in D. destruct D as [D1 D2].
    assert (N : t_err t = None) by (unfold no_error in D2; destruct (t_err t); [discriminate D2|reflexivity]).
    destruct (resume_ev ops prog c (Mst h g w pre t post)) as [[[ev1 ok1] s]|?|?] eqn:R; cbn [bind] in E; try discriminate E.
    pose proof (resume_fails c (Mst h g w pre t post) _ _ _ N D1 R) as W.
    apply resume_told in R. destruct R as [_ R]. destruct (R D1) as [-> ->]. unfold no_error in E.
    destruct (t_err (m_cur s)) eqn:Er.
    - destruct W as [W|W]; [congruence|]. inversion E; subst. exists [], (m_cur s). unfold told. rewrite W, Er. repeat split; auto.
      + congruence.
      + apply in_or_app; right; left; reflexivity.
    - destruct (vm_round_ev ops prog n c _ _ _ _ _) as [[[ev2 ok2] v2]|?|?] eqn:R2; cbn [bind] in E; try discriminate E.
      inversion E; subst. apply IH in R2. pose proof (told_quiet (m_cur s) Er) as Q. destruct ok.
      + apply Forall_app; auto.
      + destruct R2 as (b & t' & -> & B1 & B2 & B3 & B4). exists (told (m_cur s) ++ b), t'. rewrite app_assoc.
        repeat split; auto. apply Forall_app; auto.
  Qed.
End Handlers.

(** ** C95: the line of an error *)

(** After an instruction, failed or not, get_source_line is the line of the
    instruction that follows it in the code: of the byte after its operands. *)
Theorem C95_line_of_the_next : forall P H (ops : hops P H) prog s s' b i,
  znth (p_code prog) (pc s) = Some b -> of_opcode b = Some i ->
  ~ In i [INS_JMP; INS_TJMP; INS_FJMP; INS_RET] ->
  step_imp ops prog s = Ok (tt, s') -> frames s' = frames s ->
  source_line prog (m_cur s') = Program.get_line prog (pc s + ins_len i).
Proof.
  intros P H ops prog s s' b i Eb Oi Ni E Fr. unfold source_line. f_equal.
  destruct (step_inv _ _ _ _ _ E) as (b' & s1 & Eb' & _ & E1 & ->). rewrite Eb in Eb'. inversion Eb'; subst b'. rewrite Oi in E1.
  destruct (do_ins_weak ops prog i _ _ _ E1) as [_ T]. unfold transfer in T. unfold pc, frames, ins_len in *.
  cbn [m_cur with_cur t_pc t_set_pc t_frs] in *.
  assert (G : t_pc (m_cur s1) = t_pc (m_cur s) + (1 + 4 * operands i)); [|exact G].
  destruct i; try (exfalso; apply Ni; cbn; tauto); try lia;
    (destruct T as [[_ T]|(f & T & _)]; [lia|]; exfalso; rewrite Fr in T;
     apply (f_equal (@List.length _)) in T; cbn [List.length] in T; lia).
Qed.

(** The assignment on line 3 is out of bounds; the line shown is the next one. *)
Definition late_text : string := "function main()
  var a = [1]
  a[7] = 2
  return a
end
"%string.
(** The assignment is the last of its branch: there is no line to show, and asking
    the sources for it fails an assertion. *)
Definition lost_text : string := "function main()
  var a = [1]
  if (a[0])
    a[7] = 2
  else
    a[0] = 2
  end
  return a
end
"%string.
(** What a handler sees in a call of [main]: for every call of on_thread_error the
    error and the line. *)
Definition error_lines (text : string) : res (list (option terr * line_t)) :=
  let p := prog_of text in
  bind (call_once_ev (gc_ops 10) p 500 (vm_start 0 world0) (fun_of p "main") []) (fun '(ev, _, _) =>
  Ok (flat_map (fun e => match e with OnError t => [(t_err t, source_line p t)] | OnFinish _ => [] end) ev)).
Definition sources_of (text : string) : list source_t := snd (sm_load_from_string [] (bs text)).
Definition made_from (text : string) : bool :=
  match build 5 (fun _ => None) Z.of_nat false [] (sources_of text) with Ok (Some _) => true | _ => false end.

Theorem C95_wrong_line :
  made_from late_text = true /\
  error_lines late_text = Ok [(Some e_bad_array_bounds, Line 0 4)] /\
  sm_line (sources_of late_text) (Line 0 3) = Ok (bs ("  a[7] = 2
")%string) /\
  sm_line (sources_of late_text) (Line 0 4) = Ok (bs ("  return a
")%string).
Proof. split; [vm_compute; reflexivity|]. split; [vm_compute; reflexivity|]. split; vm_compute; reflexivity. Qed.

Theorem C95_no_line :
  made_from lost_text = true /\
  error_lines lost_text = Ok [(Some e_bad_array_bounds, no_line)] /\
  forall m, sm_line m no_line = Stuck SAssert.
Proof. split; [vm_compute; reflexivity|]. split; [vm_compute; reflexivity|]. intros m. reflexivity. Qed.


(** ** Examples *)

(** A vm whose global holds 5 is reset and initialised again. *)
Example C92_ex :
  build 5 (fun _ => None) Z.of_nat false [] (sources_of reset_text) = Ok (Some reset_prog) /\ fits reset_prog /\ bound reset_prog reset_prog /\
  analysed 5 (fun _ => None) Z.of_nat [] (sources_of reset_text) (fst (text_tree reset_text)) (snd (text_tree reset_text)) /\
  global_vars (fst (text_tree reset_text)) <> [] /\ c_policy shipped empty_heap = false /\
  vm_threads reset_vm <> [] /\ Exists (fun x : ptr => x <> None) (vm_glob (vm_reset reset_vm)) /\ c_fuel shipped <> O /\
  exists v, host_gc reset_prog 500 [(shipped, HCallInit); (shipped, HCallOnce (fun_of reset_prog "get") [Some (SInt 42)])] (vm_reset reset_vm) =
     Ok ([SeenFlag true; SeenCall true (ShScalar (SInt 5)) None], v).
Proof.
  split; [vm_compute; reflexivity|]. split; [apply fitsb_ok; vm_compute; reflexivity|]. split; [apply bound_self|].
  split; [apply text_analysed; [apply surjective_pairing|vm_compute; discriminate]|].
  split; [vm_compute; discriminate|]. split; [vm_compute; reflexivity|]. split; [vm_compute; discriminate|].
  split; [vm_compute; constructor; discriminate|]. split; [discriminate|].
  eexists. vm_compute. reflexivity.
Qed.

(** A thread that fails in its second slice. *)
Definition late_start : mst ptr heap :=
  Mst empty_heap [] world0 [] (prepared fresh_thread (fun_of (prog_of late_text) "main") []) [].
Example C94_ex : exists s1 t s2,
  resume_ev (gc_ops 10) (prog_of late_text) 2 late_start = Ok ([], true, s1) /\
  resume_ev (gc_ops 10) (prog_of late_text) 100 s1 = Ok ([OnError t; OnFinish t], false, s2) /\
  t_err t = Some e_bad_array_bounds /\
  history (gc_ops 10) (prog_of late_text) late_start [OnError t; OnFinish t] s2.
Proof.
  eexists _, _, _. split; [vm_compute; reflexivity|]. split; [vm_compute; reflexivity|]. split; [vm_compute; reflexivity|].
  change [OnError ?t; OnFinish ?t] with ([] ++ ([OnError t; OnFinish t] ++ [])).
  eapply (hist_resume _ _ 2); [vm_compute; reflexivity|].
  eapply (hist_resume _ _ 100); [vm_compute; reflexivity|apply hist_end].
Qed.

(** A round in which one thread finishes and the next one fails. *)
Definition both_text : string := "function good()
  return 1
end
function main()
  var a = [1]
  a[7] = 2
end
"%string.
Definition both_vm : vm ptr heap :=
  let p := prog_of both_text in
  Vm empty_heap [] world0 [prepared fresh_thread (fun_of p "good") []; prepared fresh_thread (fun_of p "main") []].
Example C94_ex_round : exists t u v,
  vm_resume_ev (gc_ops 10) (prog_of both_text) 50 both_vm = Ok ([OnFinish t; OnError u; OnFinish u], false, v).
Proof. eexists _, _, _. vm_compute. reflexivity. Qed.

Print Assumptions C92_reset_then_init.
Print Assumptions C93_reset_dangles.
Print Assumptions C93_global_becomes_argument.
Print Assumptions C94_handlers_only_watch.
Print Assumptions C94_slice.
Print Assumptions C94_once_per_thread.
Print Assumptions C94_call.
Print Assumptions C94_round.
Print Assumptions C95_line_of_the_next.
Print Assumptions C95_wrong_line.
Print Assumptions C95_no_line.
