(** C119, C120: the main function of the SDL driver. *)
From Coq Require Import ZArith List Bool Lia ZifyBool String.
From Verif Require Import PropertiesRun.
From Verif Require SrcNames PropertiesCodegen PropertiesOpt.
From Verif Require Import Base BaseFacts F32 Instr Program VM AbsHeap Gc GcSpec Refine Host HostProofs Demo VmSpec Source Lexer Ast Parser
  Sema SemaSpec Optimize Codegen Build BuildSpec SrcSem OptSpec CgSpec RunSpec HostRun PropertiesBuild PropertiesBuiltins SafeSpec SafeBuild SafeVmSpec
  DriverMain ToolSpec PropertiesText PropertiesCompile PropertiesSafeRun PropertiesDriver PropertiesSafe PropertiesRounds PropertiesHostFn.
From Verif Require Import Sdl SdlSpec SdlMain PropertiesSdl.
Import ListNotations.
Open Scope Z_scope.
Open Scope list_scope.

(** ** Specification *)
(** How often the loop resumes the vm until the first quit event, and whether
    there is one. *)
Fixpoint passes (sched : list (bool * bool)) : nat :=
  match sched with
  | [] => 0
  | (due, quit) :: r => (if due : bool then 1 else 0) + (if quit : bool then 0 else passes r)
  end.
Definition quits (sched : list (bool * bool)) : bool := existsb snd sched.
(** The drawing functions among the calls made, with the answers of SDL. *)
Fixpoint drawings (e : sdl) (before l : calls) : list (answers * drawing * list pv) :=
  match l with
  | [] => []
  | (name, args) :: l =>
      match find (fun x => bytes_eqb (fst (fst x)) name) sdl_arity with
      | Some (_, Some f) => [(sdl_window e (before ++ [(name, args)]), f, map pv_of args)]
      | _ => []
      end ++ drawings e (before ++ [(name, args)]) l
  end.
(** The value of a call. *)
Definition value_of (r : hret) : pv :=
  match r with HrNone => PNone | HrInt z => PS (SInt z) | HrFlt x => PS (SFlt x) | HrStr s => PS (SStr s) end.
(** [plays items q w ok w'] : in the world [w] the source initialises its globals
    and then main is called, even if that failed; it leaves the world [w'] and
    succeeds or not.  No threads are started. *)
Definition plays (items : list ritem) (q : program_t) (w : world) (ok : bool) (w' : world) : Prop :=
  exists f j b st i r st', named items (bs "main") = Some f /\
    init_result (initial items (entry items q) (sys_index q) (vm_sys q) j (fresh_state w)) = Some (b, st) /\ s_new st = [] /\
    call_ends (run_call items (entry items q) (sys_index q) (vm_sys q) i f [] (next_call st)) r st' /\ s_new st' = [] /\
    ok = succeeds r /\ w' = s_world st'.
(** In the course of the program some thread waits for a number of rounds that is
    negative or not a 32-bit number. *)
Definition slice : nat := Z.to_nat 1024.
Definition waits_oddly (q : program_t) (N : nat) (c : gc_cfg) (w : world) (g : function_t) : Prop :=
  exists k xs v, host_gc q N (map (pair c) (firstn k (HCallInit :: HThread g [] :: repeat (HResume slice) k))) (vm_start 0 w) = Ok (xs, v) /\
    Exists odd_wait (vm_threads v).

(** What the driver asks of the vm in [k] rounds. *)
Definition game (f : function_t) (k : nat) : list hostop := HCallInit :: HThread f [] :: repeat (HResume slice) k.
(** The pictures asked for are at least as wide as high and not enormous; SDL makes
    a window, and the surface, if there is one, has nine pixels for each pixel. *)
Definition small_pictures (ds : list (answers * drawing * list pv)) : Prop :=
  forall a wd h, In (a, D_video, [PS (SInt wd); PS (SInt h)]) ds ->
    0 <= h <= wd /\ 9 * wd <= i32_max /\ wd * h <= i32_max /\ a_window a = true /\
    forall l, a_surface a = Some l -> zlen l = 9 * (wd * h).

(** ** Proof support *)
Lemma resolve_one_bound p q n f : bound p q -> bound p (snd (syscall_resolve q n f)).
Proof.
  intros [B1 B2 B3 B4]. constructor; cbn [syscall_resolve snd p_code p_strings p_functions p_syscalls]; auto. rewrite map_map, <- B4.
  apply map_ext. intros s. now destruct (bytes_eqb (s_name s) n).
Qed.
Lemma builtins_bound p : bound p (builtins_resolve p).
Proof.
  constructor; try reflexivity. cbn [builtins_resolve p_syscalls]. rewrite map_map. apply map_ext. intros s. now destruct (map_find builtin_map (s_name s)).
Qed.
Lemma sdl_bound p : bound p (sdl_resolve p).
Proof.
  unfold sdl_resolve. generalize (builtins_bound p). generalize (builtins_resolve p). induction sdl_map as [|x m IH]; intros q B; [exact B|].
  cbn [fold_left]. apply IH. now apply resolve_one_bound.
Qed.
Lemma replay_drawn e : forall l before g, replay e before l g = drawn (drawings e before l) g.
Proof.
  induction l as [|[name args] l IH]; intros before g; [reflexivity|]. cbn [replay drawings]. unfold drawing_of.
  destruct (find _ sdl_arity) as [[[? ?] [f|]]|]; cbn [app drawn bind]; [|apply IH..].
  destruct (draw _ f (map pv_of args) g) as [[v g']| |]; cbn [bind]; [apply IH|reflexivity..].
Qed.
Section Loop.
  Variables (q : program_t) (N : nat) (c : gc_cfg).
  Let run k v := host_gc q N (map (pair c) (repeat (HResume slice) k)) v.
  Lemma run_S k v : run (S k) v =
    ('(b, v1) <- vm_resume (cfg_ops c) q slice v ;; '(xs, v2) <- run k v1 ;; Ok (SeenFlag b :: xs, v2)).
  Proof. unfold run, host_gc. cbn [repeat map host_run fst snd host_step]. destruct (vm_resume _ _ _ v) as [[b v1]| |]; reflexivity. Qed.
  Lemma loop_goes : forall sched K v, (K < passes sched)%nat ->
    (forall k, (k <= K)%nat -> exhausted (run k v) \/ exists vk, run k v = Ok (repeat (SeenFlag true) k, vk)) ->
    exhausted (run (S K) v) \/ (exists b v2, run (S K) v = Ok (repeat (SeenFlag true) K ++ [SeenFlag b], v2)) ->
    exhausted (sdl_loop c q sched v) \/
    exists b v2 o, run (S K) v = Ok (repeat (SeenFlag true) K ++ [SeenFlag b], v2) /\
      quits sched = match o with None => true | Some r => quits r end /\
      sdl_loop c q sched v = if b then match o with None => Ok (true, v2) | Some r => sdl_loop c q r v2 end else Ok (true, v2).
  Proof.
    induction sched as [|[due quit] r IH]; intros K v L Pre Fin; [cbn in L; lia|]. cbn [passes] in L.
    destruct due; cbn [sdl_loop]; fold slice.
    - destruct K as [|K].
      + rewrite run_S in *. destruct (vm_resume (cfg_ops c) q slice v) as [[b v1]|? ?|z]; cbn [bind] in *.
        * right. exists b, v1, (if quit then None else Some r). split; [reflexivity|]. split; [now destruct quit|]. now destruct b, quit.
        * exfalso. destruct Fin as [[X|[X|X]]|(b & v2 & X)]; discriminate.
        * left. destruct Fin as [X|(b & v2 & X)]; [|discriminate]. unfold exhausted in *. destruct X as [X|[X|X]]; inversion X; auto.
      + destruct quit; [lia|]. assert (R1 := Pre 1%nat ltac:(lia)). rewrite run_S in R1.
        destruct (vm_resume (cfg_ops c) q slice v) as [[b v1]|? ?|z] eqn:E; cbn [bind] in *.
        * destruct R1 as [[X|[X|X]]|(vk & X)]; [discriminate..|]. injection X as -> <-.
          assert (Rr : forall k, run (S k) v = '(xs, v2) <- run k v1 ;; Ok (SeenFlag true :: xs, v2)) by (intros k; rewrite run_S, E; reflexivity).
          destruct (IH K v1 ltac:(lia)) as [X|(b & v2 & o & R & Q & X)].
          -- intros k Lk. specialize (Pre (S k) ltac:(lia)). rewrite Rr in Pre. destruct (run k v1) as [[xs vk]|? ?|z]; cbn [bind] in Pre.
             ++ destruct Pre as [[X|[X|X]]|(vk' & X)]; [discriminate..|]. right. exists vk. cbn [repeat] in X. congruence.
             ++ destruct Pre as [[X|[X|X]]|(vk' & X)]; discriminate.
             ++ destruct Pre as [X|(vk' & X)]; [|discriminate]. left. unfold exhausted in *. destruct X as [X|[X|X]]; inversion X; auto.
          -- rewrite Rr in Fin. destruct (run (S K) v1) as [[xs vk]|? ?|z]; cbn [bind] in Fin.
             ++ destruct Fin as [[X|[X|X]]|(b & v2 & X)]; [discriminate..|]. right. exists b, v2. cbn [repeat app] in X. congruence.
             ++ destruct Fin as [[X|[X|X]]|(b & v2 & X)]; discriminate.
             ++ destruct Fin as [X|(b & v2 & X)]; [|discriminate]. left. unfold exhausted in *. destruct X as [X|[X|X]]; inversion X; auto.
          -- left. exact X.
          -- right. exists b, v2, o. split; [rewrite Rr, R; reflexivity|]. split; [exact Q|exact X].
        * exfalso. destruct R1 as [[X|[X|X]]|(vk & X)]; discriminate.
        * left. destruct R1 as [X|(vk & X)]; [|discriminate]. unfold exhausted in *. destruct X as [X|[X|X]]; inversion X; auto.
    - cbn [bind]. destruct quit; [lia|]. destruct (IH K v ltac:(lia) Pre Fin) as [X|(b & v2 & o & R & Q & X)]; [left; exact X|].
      right. exists b, v2, o. auto.
  Qed.
  (** A vm whose threads are at rest stays as it is. *)
  Lemma rest_less ts : Forall (at_rest (P := ptr)) ts -> Forall at_rest (map one_less (filter still_waits ts)).
  Proof.
    induction 1 as [|t ts [F W] _ IH]; cbn [filter map]; [constructor|]. unfold still_waits at 1. destruct (t_waits t =? 0) eqn:E; cbn [negb]; [exact IH|].
    constructor; [|exact IH]. split; [exact F|]. unfold odd_wait, one_less in *. cbn. lia.
  Qed.
  Lemma loop_rests : forall sched v, Forall at_rest (vm_threads v) ->
    exists v', sdl_loop c q sched v = Ok (quits sched, v') /\ vm_world v' = vm_world v.
  Proof.
    induction sched as [|[due quit] r IH]; intros v R; [now exists v|]. cbn [sdl_loop quits existsb snd]. fold slice. destruct due.
    - rewrite (C117_then_nothing _ _ (cfg_ops c) q slice v R). cbn [bind]. destruct quit; [eexists; split; reflexivity|].
      destruct (IH (Vm (vm_heap v) (vm_glob v) (vm_world v) (map one_less (filter still_waits (vm_threads v)))) (rest_less _ R)) as (v' & E & W). eauto.
    - cbn [bind]. destruct quit; [eexists; split; reflexivity|]. apply IH. exact R.
  Qed.
End Loop.
Lemma firstn_repeat_k A (x : A) k n : (k <= n)%nat -> firstn k (repeat x n) = repeat x k.
Proof. intros L. rewrite <- (app_nil_r (repeat x n)). now apply firstn_repeat_app. Qed.

(** ** C119

    The driver is started on sources that compile.  If running them has a meaning,
    then from some number of rounds on it does not matter how many more there are
    and when events come: what was printed, read and called is what the source
    says, the picture is what the drawing functions make of the calls of the
    source, and the driver prints exit: 0 and returns 0 if the program failed or a
    quit event came.  Otherwise (finding) it goes on running, although there is
    nothing left to run.  Exceptions are stacks beyond 32 bits, exhausted memory,
    initialisers that do not end in the first 8192 cycles and odd waits. *)
Theorem C119_game : forall fs fuel addr c N e argv w m p items n ok w',
  sdl_init e = true -> load_all fs [] argv = Some m -> build fuel fs addr true sdl_regs m = Ok (Some p) -> fits p ->
  analysed fuel fs addr sdl_regs m items n -> unshared items ->
  let q := sdl_resolve p in
  plays items q (sdl_world e w) ok w' ->
  exists g, function_find q (bs "main") = Some g /\
  (goes_deep q N (abs_start 0 (sdl_world e w)) [HCallInit; HCallOnce g []] \/
   waits_oddly q N c (sdl_world e w) g \/
   (exists x v1, host_step q (cfg_ops c) N HCallInit (vm_start 0 (sdl_world e w)) = Ok (x, v1) /\ ~ init_done v1) \/
   exists K, forall sched, (K < passes sched)%nat ->
     exhausted (sdl_main fs fuel addr c N e argv sched w) \/
     sdl_main fs fuel addr c N e argv sched w =
       (g <- drawn (drawings e [] (w_log w')) gfx_start ;;
        Ok (if quits sched || negb ok then SdlRan (Some 0) (w_put w' (bs "exit: 0" ++ [10])) g None else SdlRan None w' g None))).
Proof.
  intros fs fuel addr c N e argv w m p items n ok w' Si L B Fi A U q (f & j & b & st & i & r & st' & Na & R & Ne & Ca & Ne' & -> & ->).
  pose proof (sdl_bound p) as Bo. fold q in Bo. set (ws := sdl_world e w) in *.
  destruct (find_named _ _ _ _ _ _ _ _ _ _ _ _ B Bo A (fun _ => U) Na) as (g & Fg & _). exists g. split; [exact Fg|].
  assert (Main : forall sched, sdl_main fs fuel addr c N e argv sched w = sdl_run c N e q sched ws).
  { intros sched. unfold sdl_main. rewrite Si, driver_load_all, L. cbn [negb].
    pose proof (build_nonempty _ _ _ _ _ _ _ B) as Nm. destruct m as [|s0 m0]; [congruence|]. rewrite B. reflexivity. }
  (* the initialisers *)
  assert (Init : goes_deep q N (abs_start 0 ws) [HCallInit; HCallOnce g []] \/
    exhausted (host_step q (cfg_ops c) N HCallInit (vm_start 0 ws)) \/
    (exists x v1, host_step q (cfg_ops c) N HCallInit (vm_start 0 ws) = Ok (x, v1) /\ ~ init_done v1) \/
    exists x v1, host_step q (cfg_ops c) N HCallInit (vm_start 0 ws) = Ok (x, v1) /\ init_done v1).
  { destruct (build_means _ _ _ _ _ _ _ q _ _ B A (fun _ => U)) as (items' & n' & P & G & MI & MS).
    pose proof (MI _ _ _ _ R) as R'. destruct (find_init items' n' p q G P Bo) as (g0 & Fg0 & _ & _).
    destruct (init_host items' n' p q G P Fi Bo 0 ws g0 j b st Fg0 R') as (Gl & [O|(b' & va & Hs & K)]);
      [left; eapply deep_init; [exact Fg0|exact O]|right].
    pose proof (ref_host_step q N c HCallInit _ _ _ (SrcNames.bound_nonul _ _ _ _ _ _ _ _ B Bo) Logic.I (VR_start 0 ws)) as RR. rewrite (Hs N) in RR.
    destruct (host_step q (cfg_ops c) N HCallInit (vm_start 0 ws)) as [[x v1]|er le|x]; [|contradiction|].
    - right. assert (D : init_done v1 \/ ~ init_done v1).
      { destruct (vm_threads v1) as [|t0 r0] eqn:T using rev_ind.
        - right. intros (y & t & T' & _). rewrite T in T'. now destruct y.
        - destruct (t_fin t0) eqn:F; [left; now exists r0, t0|]. right. intros (y & t & T' & F').
          rewrite T in T'. apply app_inj_tail in T'. destruct T' as [_ <-]. congruence. }
      destruct D; [right|left]; eauto.
    - left. unfold exhausted. destruct x; cbn in RR; try contradiction; auto. }
  destruct Init as [D|[D|[D|(y & v1 & H & D)]]]; [now left| |right; right; now left|].
  { right; right; right. exists O. intros sched _. left. rewrite Main. unfold sdl_run. rewrite Fg.
    destruct (host_step q (cfg_ops c) N HCallInit (vm_start 0 ws)) as [[x v1]|? ?|x]; cbn [bind]; [destruct D as [D|[D|D]]; discriminate D..|].
    unfold exhausted in *. destruct D as [D|[D|D]]; inversion D; auto. }
  assert (Ops : forall k v2 xs, host_gc q N (map (pair c) (HThread g [] :: repeat (HResume slice) k)) v1 = Ok (xs, v2) ->
    Exists odd_wait (vm_threads v2) -> waits_oddly q N c ws g).
  { intros k v2 xs E O. exists (S (S k)), (y :: xs), v2. split; [|exact O]. cbn [firstn]. rewrite firstn_repeat_k by lia.
    unfold host_gc in *. cbn [map host_run fst snd] in *. rewrite H. cbn [bind]. rewrite E. reflexivity. }
  assert (Pos : (1 <= slice)%nat) by (unfold slice; lia).
  assert (ON : Forall op_nonul [HThread g []]) by (repeat constructor).
  destruct (C117_rounds_make_a_call _ _ _ _ _ _ _ q _ _ B Fi Bo A (fun _ => U) _ _ _ _ R Ne (bs "main") f g [] i r st' Na Fg Ca Ne' 0 N c y v1 H D slice Pos ON)
    as [(g0 & Fg0 & O)|[(va & Ha & O)|[O|[(K & Pre & Fin)|(K & Pre)]]]].
  - left. eapply deep_init; eassumption.
  - left. eapply deep_later; [exact Ha|]. now apply deep_call.
  - right; left. exists 1%nat, [y], v1. split; [|exact O]. unfold host_gc. cbn [firstn map host_run fst snd]. rewrite H. reflexivity.
  - (* the number of rounds *)
    set (lst k := map (pair c) (HThread g [] :: repeat (HResume slice) k)).
    assert (Ls : forall k, map snd (lst k) = HThread g [] :: repeat (HResume slice) k).
    { intros k. unfold lst. rewrite map_map. cbn [snd]. apply map_id. }
    assert (St : forall k, host_gc q N (lst k) v1 =
      ('(x, v2) <- host_step q (cfg_ops c) N (HThread g []) v1 ;; '(xs, v3) <- host_gc q N (map (pair c) (repeat (HResume slice) k)) v2 ;; Ok (x :: xs, v3))).
    { intros k. unfold host_gc, lst. cbn [map host_run fst snd]. reflexivity. }
    pose proof (Pre O (lst O) ltac:(lia) (Ls O)) as P0. rewrite St in P0.
    destruct (host_step q (cfg_ops c) N (HThread g []) v1) as [[x v2]|? ?|z] eqn:Ht; cbn [bind] in *;
      [|exfalso; destruct P0 as [[X|[X|X]]|(v2 & X)]; discriminate|].
    2: { right; right; right. exists O. intros sched _. left. rewrite Main. unfold sdl_run. rewrite Fg, H. cbn [bind]. rewrite Ht. cbn [bind].
         destruct P0 as [X|(v2 & X)]; [|discriminate]. unfold exhausted in *. destruct X as [X|[X|X]]; inversion X; auto. }
    destruct P0 as [X|(v2' & X)]; [destruct X as [X|[X|X]]; discriminate|]. unfold host_gc in X. cbn [map repeat host_run bind] in X. injection X as -> ->.
    assert (Odd : waits_oddly q N c ws g \/ ~ (exists v3 t ts, host_gc q N (lst (S K)) v1 = Ok (repeat (SeenFlag true) (S K) ++ [SeenFlag (succeeds r)], v3) /\
        vm_threads v3 = t :: ts /\ odd_wait t)).
    { destruct (host_gc q N (lst (S K)) v1) as [[xs v3]|? ?|z] eqn:Eh; [|right; intros (? & ? & ? & X & _); discriminate..].
      destruct (vm_threads v3) as [|t ts] eqn:Et; [right; intros (? & ? & ? & X & Y & _); inversion X; subst; congruence|].
      assert (Dw : odd_wait t \/ ~ odd_wait t) by (unfold odd_wait; lia). destruct Dw as [W|W].
      - left. apply (Ops (S K) v3 xs Eh). rewrite Et. now constructor.
      - right. intros (? & ? & ? & X & Y & Z1). inversion X; subst. rewrite Et in Y. inversion Y; subst. contradiction. }
    destruct Odd as [Odd|Odd]; [right; left; exact Odd|]. right; right; right. exists K. intros sched Lt.
    rewrite Main. unfold sdl_run. rewrite Fg, H. cbn [bind]. rewrite Ht. cbn [bind].
    assert (Go : exhausted (sdl_loop c q sched v2') \/
      exists v3 t ts o, host_gc q N (lst (S K)) v1 = Ok (repeat (SeenFlag true) (S K) ++ [SeenFlag (succeeds r)], v3) /\
       vm_world v3 = s_world st' /\ vm_threads v3 = t :: ts /\ thread_shows (vm_heap v3) t r st' /\ Forall at_rest ts /\
       quits sched = match o with None => true | Some s => quits s end /\
       sdl_loop c q sched v2' = if succeeds r then match o with None => Ok (true, v3) | Some s => sdl_loop c q s v3 end else Ok (true, v3)).
    { destruct (loop_goes q N c sched K v2' Lt) as [X|(b0 & v3 & o & E & Q & X)].
      - intros k Lk. pose proof (Pre k (lst k) Lk (Ls k)) as X. rewrite St in X. cbn [bind] in X.
        destruct (host_gc q N (map (pair c) (repeat (HResume slice) k)) v2') as [[xs v3]|? ?|z]; cbn [bind] in X.
        + destruct X as [[X|[X|X]]|(v4 & X)]; [discriminate..|]. right. exists v3. cbn [repeat] in X. congruence.
        + exfalso. destruct X as [[X|[X|X]]|(v4 & X)]; discriminate.
        + left. destruct X as [X|(v4 & X)]; [|discriminate]. unfold exhausted in *. destruct X as [X|[X|X]]; inversion X; auto.
      - pose proof (Fin (lst (S K)) (Ls (S K))) as X. rewrite St in X. cbn [bind] in X.
        destruct (host_gc q N (map (pair c) (repeat (HResume slice) (S K))) v2') as [[xs v3]|? ?|z]; cbn [bind] in X.
        + destruct X as [[X|[X|X]]|(v4 & t & ts & X & _)]; [discriminate..|]. right. exists (succeeds r), v3. cbn [repeat app] in X. congruence.
        + exfalso. destruct X as [[X|[X|X]]|(v4 & t & ts & X & _)]; discriminate.
        + left. destruct X as [X|(v4 & t & ts & X & _)]; [|discriminate]. unfold exhausted in *. destruct X as [X|[X|X]]; inversion X; auto.
      - left. exact X.
      - right. destruct (Fin (lst (S K)) (Ls (S K))) as [Y|(v4 & t & ts & Y & W & T & Sh & Re)].
        + exfalso. rewrite St in Y. cbn [bind] in Y. rewrite E in Y. cbn [bind] in Y. destruct Y as [Y|[Y|Y]]; discriminate.
        + pose proof Y as Y'. rewrite St in Y'. cbn [bind] in Y'. rewrite E in Y'. cbn [bind repeat app] in Y'. injection Y' as Y1 Y2. subst v4.
          apply app_inj_tail in Y1. destruct Y1 as [_ Y1]. injection Y1 as ->. exists v3, t, ts, o. auto 10. }
    destruct Go as [X|(v3 & t & ts & o & E & W & T & Sh & Re & Q & X)].
    { left. unfold exhausted in *. destruct X as [X|[X|X]]; rewrite X; cbn [bind]; auto. }
    right. destruct (succeeds r) eqn:Sr.
    + assert (AR : Forall at_rest (vm_threads v3)).
      { rewrite T. constructor; [|exact Re]. split; [apply Sh|]. intros Ow. apply Odd. exists v3, t, ts. auto. }
      rewrite orb_false_r, Q. destruct o as [s|].
      * destruct (loop_rests q c s v3 AR) as (v4 & E4 & W4). rewrite X, E4. cbn [bind]. rewrite W4, W, replay_drawn.
        destruct (drawn _ gfx_start) as [gx| |]; cbn [bind]; [destruct (quits s)|..]; reflexivity.
      * rewrite X. cbn [bind]. rewrite W, replay_drawn. reflexivity.
    + rewrite X. cbn [bind]. rewrite W, replay_drawn, orb_true_r. reflexivity.
  - (* odd waits *)
    set (lst k := map (pair c) (HThread g [] :: repeat (HResume slice) k)).
    assert (Ls : forall k, map snd (lst k) = HThread g [] :: repeat (HResume slice) k).
    { intros k. unfold lst. rewrite map_map. cbn [snd]. apply map_id. }
    assert (St : forall k, host_gc q N (lst k) v1 =
      ('(x, v2) <- host_step q (cfg_ops c) N (HThread g []) v1 ;; '(xs, v3) <- host_gc q N (map (pair c) (repeat (HResume slice) k)) v2 ;; Ok (x :: xs, v3))).
    { intros k. unfold host_gc, lst. cbn [map host_run fst snd]. reflexivity. }
    destruct (Pre K (lst K) (le_n _) (Ls K)) as [Ex|(v2 & E & O)]; [|right; left; apply (Ops K v2 _ E); apply O; reflexivity].
    right; right; right. exists K. intros sched Lt. left. rewrite Main. unfold sdl_run. rewrite Fg, H. cbn [bind].
    pose proof (Pre O (lst O) ltac:(lia) (Ls O)) as P0. rewrite St in P0. rewrite St in Ex.
    destruct (host_step q (cfg_ops c) N (HThread g []) v1) as [[x v2]|? ?|z] eqn:Ht; cbn [bind] in *.
    2: { exfalso; destruct P0 as [[X|[X|X]]|(v2 & X & _)]; discriminate. }
    2: { destruct P0 as [X|(v2 & X & _)]; [|discriminate]. unfold exhausted in *. destruct X as [X|[X|X]]; inversion X; auto. }
    destruct P0 as [X|(v2' & X & _)]; [destruct X as [X|[X|X]]; discriminate|]. unfold host_gc in X. cbn [map repeat host_run bind] in X. injection X as -> ->.
    destruct K as [|K]. { unfold host_gc in Ex. cbn [map repeat host_run bind] in Ex. destruct Ex as [Ex|[Ex|Ex]]; discriminate. }
    destruct (loop_goes q N c sched K v2' ltac:(lia)) as [X|(b0 & v3 & o & E & _)].
    + intros k Lk. pose proof (Pre k (lst k) ltac:(lia) (Ls k)) as X. rewrite St in X. cbn [bind] in X.
      destruct (host_gc q N (map (pair c) (repeat (HResume slice) k)) v2') as [[xs v3]|? ?|z]; cbn [bind] in X.
      * destruct X as [[X|[X|X]]|(v4 & X & _)]; [discriminate..|]. right. exists v3. cbn [repeat] in X. congruence.
      * exfalso. destruct X as [[X|[X|X]]|(v4 & X & _)]; discriminate.
      * left. destruct X as [X|(v4 & X & _)]; [|discriminate]. unfold exhausted in *. destruct X as [X|[X|X]]; inversion X; auto.
    + left. destruct (host_gc q N (map (pair c) (repeat (HResume slice) (S K))) v2') as [[xs v3]|? ?|z]; cbn [bind] in Ex;
        unfold exhausted in *; destruct Ex as [Ex|[Ex|Ex]]; inversion Ex; auto.
    + unfold exhausted in *. destruct X as [X|[X|X]]; rewrite X; cbn [bind]; auto.
    + exfalso. rewrite E in Ex. destruct Ex as [Ex|[Ex|Ex]]; discriminate.
Qed.

(** The functions of the driver answer what the drawing functions push, so the
    picture can be told from the calls afterwards. *)
Theorem C119_same_answer : forall e before name args k f g v g',
  In (name, k, Some f) sdl_arity -> draw (sdl_window e (before ++ [(name, args)])) f (map pv_of args) g = Ok (v, g') ->
  exists r, sdl_host e (before ++ [(name, args)]) = Some r /\ value_of r = v.
Proof.
  intros e before name args k f g v g' I D. unfold sdl_host. rewrite rev_app_distr. cbn [rev app]. eexists. split; [reflexivity|].
  set (a := sdl_window e (before ++ [(name, args)])) in *. unfold sdl_arity in I. cbn [In] in I.
  assert (Pn : forall A (m : res A) (h : A -> gfx), (x <- m ;; Ok (PNone, h x)) = Ok (v, g') -> v = PNone).
  { intros A m h E. apply bind_ok in E. destruct E as (x & _ & E). congruence. }
  repeat (destruct I as [I|I]; [inversion I; subst; clear I|]); try contradiction; cbn [draw] in D.
  - destruct args; [|discriminate D]. now rewrite (Pn _ _ (fun x => x) D).
  - change (bytes_eqb (bs "video") (bs "video")) with true. cbv iota.
    destruct args as [|x [|y [|? ?]]]; cbn [map] in D; try discriminate D.
    destruct x as [|[x| | | |]|]; cbn [pv_of] in D; try (now inversion D). destruct y as [|[y| | | |]|]; cbn [pv_of] in D; try (now inversion D).
    apply bind_ok in D. destruct D as ([r g1] & D & E). inversion E; subst. cbn [value_of]. do 2 f_equal. unfold video in D.
    apply bind_ok in D. destruct D as (n & _ & D). destruct (n <? 0); [discriminate|].
    destruct (a_window a), (a_surface a); cbn in D; try (inversion D; reflexivity).
    all: repeat match type of D with context [if ?b then _ else _] => destruct b end; inversion D; reflexivity.
  - destruct args as [|x [|y [|? ?]]]; cbn [map] in D; try discriminate D. destruct (is_number _ && is_number _); [|now inversion D].
    apply bind_ok in D. destruct D as (x1 & _ & D). apply bind_ok in D. destruct D as (x2 & _ & D). now rewrite (Pn _ _ (fun x => x) D).
  - destruct args; [|discriminate D]. now rewrite (Pn _ _ (fun x => x) D).
  - destruct args as [|x [|y [|z [|? ?]]]]; cbn [map] in D; try discriminate D. destruct (is_number _ && is_number _ && is_number _); [|now inversion D].
    apply bind_ok in D. destruct D as (x1 & _ & D). apply bind_ok in D. destruct D as (x2 & _ & D). now rewrite (Pn _ _ (fun x => setrgb x1 x2 x g) D).
  - destruct args as [|x [|y [|z [|? ?]]]]; cbn [map] in D; try discriminate D. destruct (is_number _ && is_number _ && is_number _); [|now inversion D].
    apply bind_ok in D. destruct D as (x1 & _ & D). apply bind_ok in D. destruct D as (x2 & _ & D). apply bind_ok in D. destruct D as (x3 & _ & D).
    now rewrite (Pn _ _ (fun x => x) D).
  - destruct args as [|x [|y [|z [|u [|? ?]]]]]; cbn [map] in D; try discriminate D.
    destruct (pv_of x) as [|[x0| | | |]|]; try (now inversion D). destruct (pv_of y) as [|[y0| | | |]|]; try (now inversion D).
    destruct (pv_of z) as [|[z0| | | |]|]; try (now inversion D). destruct (pv_of u) as [|[u0| | | |]|]; try (now inversion D).
    now rewrite (Pn _ _ (fun x => x) D).
Qed.

(** ** Exit codes

    The driver gives up with a code of its own if SDL does not start, a file cannot
    be read, there is none, the sources do not compile, or there is no main without
    parameters.  Finding: otherwise the exit code is 0, whatever becomes of the
    program, and the driver does not end before a round fails or a quit event
    comes. *)
Lemma loop_over c q : forall sched v v', sdl_loop c q sched v = Ok (false, v') -> quits sched = false.
Proof.
  induction sched as [|[due quit] r IH]; intros v v' E; [reflexivity|]. cbn [sdl_loop] in E.
  apply bind_ok in E. destruct E as ([go v4] & _ & E). destruct go; [|discriminate E]. destruct quit; [discriminate E|]. exact (IH _ _ E).
Qed.
Lemma thread_started P H q (ops : hops P H) N f v x v' : host_step q ops N (HThread f []) v = Ok (x, v') -> x = SeenFlag (num_args f =? 0).
Proof.
  intros Ht. cbn [host_step new_args bind] in Ht. apply bind_ok in Ht. destruct Ht as ([ok v3] & Hn & Ht). injection Ht as <- _. f_equal.
  unfold vm_new_thread, new_thread in Hn. cbn [copy_all] in Hn. change (zlen (@nil P)) with 0 in Hn. destruct (num_args f =? 0); now inversion Hn.
Qed.
Lemma run_codes c N e q sched w x : sdl_run c N e q sched w = Ok x ->
  r_blame x = None /\
  match function_find q (bs "main") with
  | None => r_code x = Some 1
  | Some f => if num_args f =? 0 then r_code x = Some 0 \/ (r_code x = None /\ quits sched = false) else r_code x = Some 1
  end.
Proof.
  intros E.
  unfold sdl_run in E.
  destruct (function_find q (bs "main")) as [f|]; [|injection E as <-; split; reflexivity].
  apply bind_ok in E. destruct E as ([y v1] & _ & E). apply bind_ok in E. destruct E as ([z v2] & Ht & E).
  apply thread_started in Ht.
  subst z. destruct (num_args f =? 0).
  - apply bind_ok in E. destruct E as ([over v3] & El & E). apply bind_ok in E. destruct E as (g & _ & E).
    destruct over; injection E as <-; (split; [reflexivity|]); [left; reflexivity|]. right. split; [reflexivity|]. exact (loop_over _ _ _ _ _ El).
  - apply bind_ok in E. destruct E as (g & _ & E). injection E as <-. split; reflexivity.
Qed.

Lemma sdl_find p x : function_find (sdl_resolve p) x = function_find p x.
Proof. pose proof (bo_functions _ _ (sdl_bound p)) as E. revert E. generalize (sdl_resolve p). intros q E. unfold function_find. now rewrite E. Qed.
Theorem C119_exit_codes : forall fs fuel addr c N e argv sched w x,
  sdl_main fs fuel addr c N e argv sched w = Ok x ->
  if sdl_init e then
    match load_all fs [] argv with
    | None => x = SdlRan (Some (-2)) w gfx_start None
    | Some [] => x = SdlRan (Some (-1)) w gfx_start None
    | Some m =>
        match build fuel fs addr true sdl_regs m with
        | Ok (Some p) =>
            r_blame x = None /\
            match function_find p (bs "main") with
            | None => r_code x = Some 1
            | Some f => if num_args f =? 0 then r_code x = Some 0 \/ (r_code x = None /\ quits sched = false) else r_code x = Some 1
            end
        | Err er l => x = SdlRan (Some 1) w gfx_start (Some (er, l))
        | _ => False
        end
    end
  else x = SdlRan (Some 1) w gfx_start None.
Proof.
  intros fs fuel addr c N e argv sched w x E. unfold sdl_main in E. destruct (sdl_init e); cbn [negb] in E; [|congruence].
  rewrite driver_load_all in E. destruct (load_all fs [] argv) as [[|s m]|] eqn:L; [congruence| |congruence].
  destruct (build fuel fs addr true sdl_regs (s :: m)) as [[p|]|er l|y] eqn:B; [| |congruence|discriminate].
  2: { cbn [build] in B. apply bind_ok in B. destruct B as ([? ?] & _ & B). apply bind_ok in B. destruct B as (? & _ & B). discriminate B. }
  apply run_codes in E. rewrite sdl_find in E. exact E.
Qed.

(** keydown tells of six keys, by their names, whether they are held: 1 or 0.  Of
    anything else it answers none. *)
Theorem C119_keys : forall e before a,
  let l := before ++ [(bs "keydown", [a])] in
  (forall k, In k [bs "up"; bs "down"; bs "left"; bs "right"; bs "escape"; bs "space"] -> a = HaVal (SStr k) ->
     (sdl_keys e l k = true -> sdl_host e l = Some (HrInt 1)) /\ (sdl_keys e l k = false -> sdl_host e l = Some (HrInt 0))) /\
  ((forall k, In k [bs "up"; bs "down"; bs "left"; bs "right"; bs "escape"; bs "space"] -> forall s, a = HaVal (SStr s) -> cstr s <> k) ->
     sdl_host e l = Some HrNone).
Proof.
  intros e before a l. assert (H : sdl_host e l = Some match a with HaVal (SStr s) => keydown (sdl_keys e l) s | _ => HrNone end).
  { unfold sdl_host, l. rewrite rev_app_distr. cbn [rev app]. reflexivity. }
  rewrite H. clear H. split.
  - intros k I ->. unfold keydown. cbn [In] in I.
    repeat (destruct I as [<-|I]; [split; intros Q; cbn [cstr]; vm_compute in Q |- *; rewrite Q; reflexivity|]). contradiction.
  - intros N. destruct a as [|[| |s| |]|]; try reflexivity. unfold keydown.
    destruct (existsb (bytes_eqb (cstr s)) key_names) eqn:X; [|reflexivity]. exfalso. apply existsb_exists in X. destruct X as (k & I & E).
    apply bytes_eqb_eq in E. exact (N k I s eq_refl E).
Qed.
Print Assumptions C119_keys.

(** ** C120 *)
Lemma some_inj A (x y : A) : Some x = Some y -> x = y.
Proof. congruence. Qed.
Lemma sdl_resolve_nth p i : znth (p_syscalls (sdl_resolve p)) i = option_map (fun s => fold_left bind_one sdl_map (bind_builtin s)) (znth (p_syscalls p) i).
Proof. unfold sdl_resolve. rewrite fold_resolve, builtins_resolve_nth. now destruct (znth (p_syscalls p) i). Qed.
(** Every syscall of a program compiled by the driver is bound to its function. *)
Theorem C120_binds_all : forall fuel fs addr on m p, build fuel fs addr on sdl_regs m = Ok (Some p) ->
  zlen (p_syscalls (sdl_resolve p)) = zlen sdl_regs /\
  forall i name k, znth sdl_regs i = Some (name, k) ->
    exists f, znth (p_syscalls (sdl_resolve p)) i = Some (Sysc name (Some f)) /\ In name (names_of f) /\
      if k <? 0 then forall n, 0 <= n -> SafeSpec.reads f n else SafeSpec.reads f k.
Proof.
  intros fuel fs addr on m p B. destruct (C107_syscall_table _ _ _ _ _ _ _ B) as [T _]. split.
  - pose proof (f_equal zlen (bo_syscalls _ _ (sdl_bound p))) as E. rewrite !zlen_map in E. rewrite E, T, zlen_map. reflexivity.
  - intros i name k I0. rewrite sdl_resolve_nth, T, znth_map, I0. cbn [option_map fst]. apply znth_In in I0.
    unfold sdl_regs, builtin_arity, sdl_arity in I0; cbn [In app map fst] in I0;
    repeat (destruct I0 as [I0|I0]; [pose proof (f_equal fst I0) as In_; pose proof (f_equal snd I0) as Ik_; cbn [fst snd] in In_, Ik_;
      clear I0; subst name k; eexists; split; [vm_compute; reflexivity|split; [vm_compute; tauto|cbn; auto]]|]); contradiction.
Qed.
(** And the functions it can call are these. *)
Definition offered : list (bytes * Z) :=
  [(bs "abs", 1); (bs "min", 2); (bs "max", 2); (bs "bitand", 2); (bs "sin", 1); (bs "cos", 1); (bs "tan", 1);
   (bs "len", 1); (bs "chr", 1); (bs "round", 1); (bs "ceil", 1); (bs "floor", 1); (bs "sqrt", 1);
   (bs "new_thread", -1); (bs "wait", 1); (bs "new_array", 1);
   (bs "cls", 0); (bs "rand", 0); (bs "video", 2); (bs "plot", 2); (bs "flip", 0); (bs "setrgb", 3);
   (bs "circle", 3); (bs "line", 4); (bs "sleep", 1); (bs "keydown", 1)].
Theorem C120_offers : forall fuel fs addr on m p, build fuel fs addr on sdl_regs m = Ok (Some p) ->
  (forall name k, In (name, k) offered -> exists i f, znth (p_syscalls (sdl_resolve p)) i = Some (Sysc name (Some f)) /\ In name (names_of f)) /\
  (forall i s, znth (p_syscalls (sdl_resolve p)) i = Some s -> exists k, In (s_name s, k) offered).
Proof.
  intros fuel fs addr on m p B. destruct (C120_binds_all _ _ _ _ _ _ B) as [Le Bi]. assert (E : sdl_regs = offered) by (vm_compute; reflexivity).
  rewrite E in *. split.
  - intros name k I. apply In_nth_error in I. destruct I as (n & I).
    assert (Z : znth offered (Z.of_nat n) = Some (name, k)) by (rewrite znth_nth_error, Nat2Z.id by lia; exact I).
    destruct (Bi _ _ _ Z) as (f & F1 & F2 & _). eauto.
  - intros i s Hs. assert (Ri : 0 <= i < zlen (p_syscalls (sdl_resolve p))).
    { apply znth_some in Hs. exact Hs. }
    destruct (znth offered i) as [[name k]|] eqn:Z.
    + destruct (Bi _ _ _ Z) as (f & F1 & _). rewrite Hs in F1. apply some_inj in F1. subst s. cbn [s_name]. exists k. eapply znth_In; exact Z.
    + exfalso. rewrite Le in Ri. apply znth_none in Z. lia.
Qed.
Lemma in_znth {A} (l : list A) x : In x l -> exists i, znth l i = Some x.
Proof. intros I. apply In_nth_error in I. destruct I as (k & E). exists (Z.of_nat k). rewrite znth_nth_error, Nat2Z.id by lia. exact E. Qed.
Lemma sdl_honest fuel fs addr on m p : build fuel fs addr on sdl_regs m = Ok (Some p) -> honest sdl_regs (sdl_resolve p).
Proof.
  intros B name a s I J Nm. destruct (C120_binds_all _ _ _ _ _ _ B) as [Le Bi]. destruct (C107_syscall_table _ _ _ _ _ _ _ B) as [T ND].
  destruct (in_znth _ _ J) as (i & Ei). assert (E : znth (p_syscalls p) i = option_map (fun r => Sysc (fst r) None) (znth sdl_regs i)) by (rewrite T; apply znth_map).
  rewrite sdl_resolve_nth, E in Ei. destruct (znth sdl_regs i) as [[nm k]|] eqn:Er; [|discriminate Ei].
  destruct (Bi _ _ _ Er) as (f & Ef & _ & R). rewrite sdl_resolve_nth, E in Ef. rewrite Ef in Ei. injection Ei as <-. cbn [s_name] in Nm. subst nm.
  apply znth_In in Er. assert (a = k).
  { clear - I Er ND. induction sdl_regs as [|[n0 k0] l IH]; [contradiction|]. cbn [map fst] in ND. inversion ND as [|? ? N1 N2]; subst.
    assert (X : forall z, In (name, z) l -> In name (map fst l)) by (intros z Iz; apply (in_map fst) in Iz; exact Iz).
    destruct I as [I|I], Er as [Er|Er]; [congruence|..|now apply IH]; exfalso; apply N1; [injection I as -> ->|injection Er as -> ->]; eauto. }
  subst a. exists f. split; [reflexivity|exact R].
Qed.
(** So they have the stack discipline of C99, and what is said about crashes in
    C100 holds of them. *)
Theorem C120_verified : forall fuel fs addr on m p, build fuel fs addr on sdl_regs m = Ok (Some p) -> fits p -> verified (sdl_resolve p).
Proof.
  intros fuel fs addr on m p B F. eapply C99_stack_discipline; [exact B|exact F|apply sdl_bound|]. eapply sdl_honest; exact B.
Qed.
(** Whatever a program does, its calls are calls of the functions registered, with
    the number of arguments registered. *)
Theorem C120_calls : forall fuel fs addr on m p N (l : list (gc_cfg * hostop)) w e xs v,
  build fuel fs addr on sdl_regs m = Ok (Some p) ->
  host_gc (sdl_resolve p) N l (vm_start 0 (sdl_world e w)) = Ok (xs, v) ->
  Forall (fun c => exists d, In (fst c, zlen (snd c), d) sdl_arity) (w_log (vm_world v)) /\
  Forall (fun c => exists name, In (name, zlen (snd c), Some (snd (fst c))) sdl_arity) (drawings e [] (w_log (vm_world v))).
Proof.
  intros fuel fs addr on m p N l w e xs v B E. destruct (C107_syscall_table _ _ _ _ _ _ _ B) as [T _].
  assert (Fa : Forall (fun c => exists d, In (fst c, zlen (snd c), d) sdl_arity) (w_log (vm_world v))).
  { unfold host_gc in E. apply C118_world_goes_on in E. destruct E as (_ & _ & _ & _ & o & i & c & _ & _ & Lo & Po). cbn in Lo. rewrite Lo.
    eapply Forall_impl; [|exact Po]. clear - T. intros [name args] (k & nm & f & Es & Hf). cbn [fst snd] in *.
    rewrite sdl_resolve_nth, T, znth_map in Es. destruct (znth sdl_regs k) as [[nm0 a]|] eqn:Er; [|discriminate Es].
    cbn [option_map fst] in Es. apply some_inj in Es. apply znth_In in Er.
    assert (X : f = F_host name (List.length args) -> exists d, In (name, Z.of_nat (List.length args), d) sdl_arity).
    { intros ->. clear Hf.
      assert (U : forallb (fun r : bytes * Z => match s_call (fold_left bind_one sdl_map (bind_builtin (Sysc (fst r) None))) with
          | Some (F_host nm n) => existsb (fun x : bytes * Z * option drawing => bytes_eqb nm (fst (fst x)) && (Z.of_nat n =? snd (fst x))) sdl_arity
          | _ => true end) sdl_regs = true) by (vm_compute; reflexivity).
      rewrite forallb_forall in U. specialize (U _ Er). cbn [fst] in U. rewrite Es in U. cbn [s_call] in U.
      apply existsb_exists in U. destruct U as ([[nm1 k1] d] & I & Q). cbn [fst snd] in Q. apply andb_prop in Q. destruct Q as [Q1 Q2].
      apply bytes_eqb_eq in Q1. apply Z.eqb_eq in Q2. subst. exists d. exact I. }
    destruct Hf as [Hf|[Hf [n Hc]]]; [exact (X Hf)|]. injection Hc as -> ->. exists None. vm_compute. tauto. }
  split; [exact Fa|]. generalize (@nil (bytes * list harg)). induction Fa as [|[name args] r (d & I) _ IH]; intros before; cbn [drawings]; [constructor|].
  apply Forall_app. split; [|apply IH]. destruct (find _ sdl_arity) as [[[nm k] [f|]]|] eqn:Fi; constructor; [|constructor].
  cbn [fst snd]. pose proof (find_some _ _ Fi) as [I2 Q]. cbn [fst] in Q. apply bytes_eqb_eq in Q. subst nm. exists name.
  replace (zlen (map pv_of args)) with k; [exact I2|]. rewrite zlen_map. cbn [fst snd] in I.
  assert (U : forallb (fun a => forallb (fun b => negb (bytes_eqb (fst (fst a)) (fst (fst b))) || (snd (fst a) =? snd (fst b))) sdl_arity) sdl_arity = true)
    by (vm_compute; reflexivity).
  rewrite forallb_forall in U. specialize (U _ I2). cbv beta in U. rewrite forallb_forall in U. specialize (U _ I). cbn [fst snd] in U.
  rewrite (proj2 (bytes_eqb_eq name name) eq_refl) in U. cbn [negb orb] in U. lia.
Qed.

(** ** Crashes

    A run of the driver is a history of calls of the vm: initialisers, a thread
    and as many rounds as it takes. *)
Lemma loop_ops q N c : forall sched v, exists k,
  match sdl_loop c q sched v with
  | Ok (_, v') => exists xs, host_gc q N (map (pair c) (repeat (HResume slice) k)) v = Ok (xs, v')
  | Err er l => host_gc q N (map (pair c) (repeat (HResume slice) k)) v = Err er l
  | Stuck x => host_gc q N (map (pair c) (repeat (HResume slice) k)) v = Stuck x
  end.
Proof.
  induction sched as [|[due quit] r IH]; intros v; [exists O, []; reflexivity|]. cbn [sdl_loop]. fold slice. destruct due.
  - assert (R := run_S q N c). destruct (vm_resume (cfg_ops c) q slice v) as [[b v1]|er l|x] eqn:E; cbn [bind].
    + assert (One : exists xs, host_gc q N (map (pair c) (repeat (HResume slice) 1)) v = Ok (xs, v1)).
      { rewrite R, E. cbn [bind]. eexists. reflexivity. }
      destruct b; [destruct quit|]; [exists 1%nat; exact One| |exists 1%nat; exact One].
      destruct (IH v1) as (k & X). exists (S k). rewrite R, E. cbn [bind].
      destruct (sdl_loop c q r v1) as [[o v2]|er l|x]; [destruct X as (xs & X)|..]; rewrite X; cbn [bind]; [eexists|..]; reflexivity.
    + exists 1%nat. rewrite R, E. reflexivity.
    + exists 1%nat. rewrite R, E. reflexivity.
  - cbn [bind]. destruct quit; [exists O, []; reflexivity|]. apply IH.
Qed.
Lemma game_step q N c f k v : host_gc q N (map (pair c) (game f k)) v =
  ('(x, v1) <- host_step q (cfg_ops c) N HCallInit v ;; '(y, v2) <- host_step q (cfg_ops c) N (HThread f []) v1 ;;
   '(xs, v3) <- host_gc q N (map (pair c) (repeat (HResume slice) k)) v2 ;; Ok (x :: y :: xs, v3)).
Proof.
  unfold game, host_gc. cbn [map host_run fst snd]. destruct (host_step q (cfg_ops c) N HCallInit v) as [[x v1]| |]; cbn [bind]; [|reflexivity..].
  destruct (host_step q (cfg_ops c) N (HThread f []) v1) as [[y v2]| |]; cbn [bind]; [|reflexivity..].
  destruct (host_run _ _ _ v2) as [[xs v3]| |]; reflexivity.
Qed.
Lemma run_ops c N e q sched w f : function_find q (bs "main") = Some f -> exists k,
  match host_gc q N (map (pair c) (game f k)) (vm_start 0 w) with
  | Ok (_, v) => match drawn (drawings e [] (w_log (vm_world v))) gfx_start with
      | Ok g => exists x, sdl_run c N e q sched w = Ok x /\ r_gfx x = g /\ w_log (r_world x) = w_log (vm_world v)
      | Err er l => sdl_run c N e q sched w = Err er l
      | Stuck x => sdl_run c N e q sched w = Stuck x
      end
  | Err er l => sdl_run c N e q sched w = Err er l
  | Stuck x => sdl_run c N e q sched w = Stuck x
  end.
Proof.
  intros F. unfold sdl_run. rewrite F.
  destruct (host_step q (cfg_ops c) N HCallInit (vm_start 0 w)) as [[x v1]| |] eqn:Hi; cbn [bind]; [|exists O; rewrite game_step, Hi; reflexivity..].
  destruct (host_step q (cfg_ops c) N (HThread f []) v1) as [[y v2]| |] eqn:Ht; cbn [bind]; [|exists O; rewrite game_step, Hi; cbn [bind]; rewrite Ht; reflexivity..].
  pose proof (thread_started _ _ _ _ _ _ _ _ _ Ht) as Ey. destruct (num_args f =? 0); subst y.
  - destruct (loop_ops q N c sched v2) as (k & X). exists k. rewrite game_step, Hi. cbn [bind]. rewrite Ht. cbn [bind].
    destruct (sdl_loop c q sched v2) as [[over v3]|? ?|?]; [destruct X as (xs & X)|..]; rewrite X; cbn [bind]; [|reflexivity..].
    rewrite replay_drawn. destruct (drawn _ gfx_start) as [g| |]; cbn [bind]; [|reflexivity..]. eexists. split; [reflexivity|]. destruct over; split; reflexivity.
  - exists O. rewrite game_step, Hi. cbn [bind]. rewrite Ht. cbn [bind]. unfold host_gc. cbn [repeat map host_run bind]. rewrite replay_drawn.
    destruct (drawn _ gfx_start) as [g| |]; cbn [bind]; [|reflexivity..]. eexists. split; [reflexivity|]. split; reflexivity.
Qed.
Lemma run_crashes c N e q sched w f x :
  verified q -> prog_nonul q -> function_find q (bs "main") = Some f ->
  (forall k xs v, host_gc q N (map (pair c) (game f k)) (vm_start 0 w) = Ok (xs, v) ->
     Forall (fun c => exists name, In (name, zlen (snd c), Some (snd (fst c))) sdl_arity) (drawings e [] (w_log (vm_world v)))) ->
  sdl_run c N e q sched w = Stuck x ->
  exists k, misused q (game f k) (abs_start 0 w) \/ ends_badly q (game f k) (abs_start 0 w) x \/
     exists xs v, host_gc q N (map (pair c) (game f k)) (vm_start 0 w) = Ok (xs, v) /\
       drawn (drawings e [] (w_log (vm_world v))) gfx_start = Stuck x /\
       (small_pictures (drawings e [] (w_log (vm_world v))) -> x = SOverflow \/ x = SCast).
Proof.
  intros V PN Ff Cs E. destruct (run_ops c N e q sched w f Ff) as (k & R). exists k.
  assert (In0 : In f (p_functions q)). { unfold function_find in Ff. apply find_some in Ff. apply Ff. }
  assert (Ms : map snd (map (pair c) (game f k)) = game f k) by (rewrite map_map; cbn [snd]; apply map_id).
  pose proof (C100_runs q 0 w N (map (pair c) (game f k)) V PN) as C. rewrite Ms in C.
  destruct C as [M|C].
  { unfold game. constructor; [exact Logic.I|]. constructor; [constructor|]. apply Forall_forall. intros o Io. apply repeat_spec in Io. subst o. exact Logic.I. }
  { unfold game. constructor; [exact Logic.I|]. constructor; [split; [exact In0|constructor]|]. apply Forall_forall. intros o Io. apply repeat_spec in Io. subst o. exact Logic.I. }
  { left. exact M. }
  right. specialize (Cs k). destruct (host_gc q N (map (pair c) (game f k)) (vm_start 0 w)) as [[xs v]|? ?|z] eqn:Eh; [|contradiction|].
  2: { left. rewrite R in E. injection E as <-. exact C. }
  right. exists xs, v. split; [reflexivity|]. pose proof (Cs xs v eq_refl) as Ar.
  destruct (drawn (drawings e [] (w_log (vm_world v))) gfx_start) as [g|? ?|z] eqn:Ed.
  - destruct R as (y & R & _). rewrite R in E. discriminate E.
  - rewrite R in E. discriminate E.
  - rewrite R in E. injection E as <-. split; [reflexivity|]. intros Vi.
    destruct (C108_drawing_stays_inside (drawings e [] (w_log (vm_world v)))) as [(g & X & _)|[X|X]].
    + rewrite Forall_forall in Ar |- *. intros [[a d] args] I. split; [exact (Ar _ I)|]. intros wd h -> ->. exact (Vi _ _ _ I).
    + congruence.
    + left. congruence.
    + right. congruence.
Qed.
(** If the driver does not end in an orderly way, then the compiler crashes on the
    sources, or one of the reasons of C100 holds (or a syscall value is called with
    a wrong number of arguments on the way), or a drawing function crashes.  If all
    pictures asked for are as in C108, the latter is an arithmetic overflow or a
    number out of range. *)
Theorem C120_crashes : forall fs fuel addr c N e argv sched w x,
  (forall m p, load_all fs [] argv = Some m -> build fuel fs addr true sdl_regs m = Ok (Some p) -> fits p) ->
  sdl_main fs fuel addr c N e argv sched w = Stuck x ->
  exists m, load_all fs [] argv = Some m /\
  (build fuel fs addr true sdl_regs m = Stuck x \/
   exists p f, build fuel fs addr true sdl_regs m = Ok (Some p) /\ function_find p (bs "main") = Some f /\
     exists k, misused (sdl_resolve p) (game f k) (abs_start 0 (sdl_world e w)) \/
     ends_badly (sdl_resolve p) (game f k) (abs_start 0 (sdl_world e w)) x \/
     exists xs v, host_gc (sdl_resolve p) N (map (pair c) (game f k)) (vm_start 0 (sdl_world e w)) = Ok (xs, v) /\
       drawn (drawings e [] (w_log (vm_world v))) gfx_start = Stuck x /\
       (small_pictures (drawings e [] (w_log (vm_world v))) -> x = SOverflow \/ x = SCast)).
Proof.
  intros fs fuel addr c N e argv sched w x Fi E. unfold sdl_main in E. destruct (sdl_init e); cbn [negb] in E; [|discriminate].
  rewrite driver_load_all in E. destruct (load_all fs [] argv) as [[|s m]|] eqn:L; [discriminate| |discriminate]. exists (s :: m). split; [reflexivity|].
  destruct (build fuel fs addr true sdl_regs (s :: m)) as [[p|]|er l|y] eqn:B; [right|discriminate..|left; congruence].
  specialize (Fi (s :: m) p eq_refl B). exists p.
  pose proof (C120_verified _ _ _ _ _ _ B Fi) as V. pose proof (SrcNames.bound_nonul _ _ _ _ _ _ _ _ B (sdl_bound p)) as PN.
  pose proof (fun l xs v => C120_calls _ _ _ _ _ _ N l w e xs v B) as Cs. pose proof (sdl_find p (bs "main")) as Fm.
  revert V PN Cs Fm E. generalize (sdl_resolve p). intros q V PN Cs Fm E.
  destruct (function_find p (bs "main")) as [f|] eqn:Ff; [|unfold sdl_run in E; rewrite Fm in E; discriminate].
  exists f. split; [reflexivity|]. split; [reflexivity|]. eapply run_crashes; try eassumption.
  intros k xs v Eh. apply (Cs _ _ _ Eh).
Qed.

(** ** Programs that meet the hypotheses

    The first draws a dot and waits for a key; the second fails at once.  The window
    can be made and has nine pixels for each one of the picture, and the key is held
    from the sixth call on. *)
Definition dot_text : string := "var size = 2
function main()
  video(size, size)
  setrgb(1, 2, 3)
  while (not keydown(""space""))
    plot(1, 0)
    flip()
    sleep(20)
  end
  cls()
end
"%string.
Definition wrong_text : string := "var size = none + 1
function main()
  cls()
  return 1 + none
end
"%string.
Definition sdl_ex : sdl := MkSdl true (fun _ => Answers true (Some (repeat 0 36))) (fun l k => bytes_eqb k (bs "space") && (6 <=? zlen l)).
Definition game_m (text : string) : list source_t := say_m text.
Definition game_prog (text : string) : program_t :=
  match build 5 (file_named text) Z.of_nat true sdl_regs (game_m text) with Ok (Some p) => p | _ => Prog [] [] [] [] [] [] end.
Definition game_tree (text : string) : list ritem * nat :=
  match ('(src, _) <- parse_sources 5 (file_named text) (game_m text) 0 [] [] ;;
         run_sema Z.of_nat (map (fun r => CSys (fst r) (snd r)) sdl_regs ++ map CItem src)) with
  | Ok r => r | _ => ([], 0%nat)
  end.
Lemma game_analysed text : snd (game_tree text) <> 0%nat ->
  analysed 5 (file_named text) Z.of_nat sdl_regs (game_m text) (fst (game_tree text)) (snd (game_tree text)).
Proof.
  unfold game_tree. intros N.
  destruct (parse_sources 5 (file_named text) (game_m text) 0 [] []) as [[src m']|? ?|?] eqn:P; cbn [bind] in *; [|cbn in N; congruence..].
  destruct (run_sema Z.of_nat _) as [[i0 n0]|? ?|?] eqn:R; [|cbn in N; congruence..]. now exists src, m'.
Qed.
Definition game_run (text : string) (sched : list (bool * bool)) : res sdl_ran :=
  sdl_main (file_named text) 5 Z.of_nat cfg_always 500 sdl_ex say_argv sched world0.
Definition dot_calls : calls :=
  [(bs "video", [HaVal (SInt 2); HaVal (SInt 2)]); (bs "setrgb", [HaVal (SInt 1); HaVal (SInt 2); HaVal (SInt 3)]);
   (bs "keydown", [HaVal (SStr (bs "space"))]); (bs "plot", [HaVal (SInt 1); HaVal (SInt 0)]); (bs "flip", []);
   (bs "sleep", [HaVal (SInt 20)]); (bs "keydown", [HaVal (SStr (bs "space"))]); (bs "cls", [])].
Definition called (l : calls) : world :=
  let w := sdl_world sdl_ex world0 in World (w_out w) (w_in w) (w_rng w) (w_sin w) (w_cos w) (w_tan w) l (w_host w).
Definition dot_screen : list Z :=
  let r := repeat 0 3 ++ repeat 66051 3 in r ++ r ++ r ++ repeat 0 18.
Lemma plays_ex text ok l j i :
  (exists f b st r st', named (fst (game_tree text)) (bs "main") = Some f /\
    init_result (initial (fst (game_tree text)) (entry (fst (game_tree text)) (sdl_resolve (game_prog text))) (sys_index (sdl_resolve (game_prog text)))
      (vm_sys (sdl_resolve (game_prog text))) j (fresh_state (sdl_world sdl_ex world0))) = Some (b, st) /\ s_new st = [] /\
    call_ends (run_call (fst (game_tree text)) (entry (fst (game_tree text)) (sdl_resolve (game_prog text))) (sys_index (sdl_resolve (game_prog text)))
      (vm_sys (sdl_resolve (game_prog text))) i f [] (next_call st)) r st' /\ s_new st' = [] /\ ok = succeeds r /\ called l = s_world st') ->
  plays (fst (game_tree text)) (sdl_resolve (game_prog text)) (sdl_world sdl_ex world0) ok (called l).
Proof. intros (f & b & st & r & st' & E). exists f, j, b, st, i, r, st'. exact E. Qed.
Lemma ends_done o v st : o = Done (v, st) -> call_ends o (inl v) st.
Proof. intros ->. reflexivity. Qed.
(** The first program, and what is left of it after two rounds or more. *)
Example C119_ex :
  load_all (file_named dot_text) [] say_argv = Some (game_m dot_text) /\
  build 5 (file_named dot_text) Z.of_nat true sdl_regs (game_m dot_text) = Ok (Some (game_prog dot_text)) /\ fits (game_prog dot_text) /\
  analysed 5 (file_named dot_text) Z.of_nat sdl_regs (game_m dot_text) (fst (game_tree dot_text)) (snd (game_tree dot_text)) /\
  unshared (fst (game_tree dot_text)) /\
  plays (fst (game_tree dot_text)) (sdl_resolve (game_prog dot_text)) (sdl_world sdl_ex world0) true (called dot_calls) /\
  (exists g, drawn (drawings sdl_ex [] dot_calls) gfx_start = Ok g /\ x_screen g = Some dot_screen /\
     game_run dot_text [(true, false); (false, false); (true, false); (true, false)] = Ok (SdlRan None (called dot_calls) g None) /\
     game_run dot_text [(true, false); (true, false); (true, true)] = Ok (SdlRan (Some 0) (w_put (called dot_calls) (bs "exit: 0" ++ [10])) g None)).
Proof.
  do 2 (split; [vm_compute; reflexivity|]). split; [apply PropertiesCodegen.fitsb_ok; vm_compute; reflexivity|].
  split; [apply game_analysed; vm_compute; discriminate|]. split; [apply PropertiesOpt.unshared_b_ok; vm_compute; reflexivity|]. split.
  - apply (plays_ex _ _ _ 50 50). eexists _, _, _, _, _. do 3 (split; [vm_compute; reflexivity|]).
    split; [apply ends_done; vm_compute; reflexivity|]. do 2 (split; [vm_compute; reflexivity|]). vm_compute. reflexivity.
  - eexists. do 3 (split; [vm_compute; reflexivity|]). vm_compute. reflexivity.
Qed.
(** Finding: a program whose initialisers fail, and whose main fails after its first
    call, ends with exit: 0. *)
Example C119_failing :
  game_run wrong_text [(true, false)] = Ok (SdlRan (Some 0) (w_put (called [(bs "cls", [])]) (bs "exit: 0" ++ [10])) gfx_start None).
Proof. vm_compute. reflexivity. Qed.
(** Other ways to end. *)
Example C119_others :
  game_run "function main(x)
end
"%string [(true, true)] = Ok (SdlRan (Some 1) (called []) gfx_start None) /\
  game_run "var x = 1
"%string [(true, true)] = Ok (SdlRan (Some 1) (called []) gfx_start None) /\
  (exists b, game_run "end"%string [(true, true)] = Ok (SdlRan (Some 1) world0 gfx_start (Some b))) /\
  sdl_main (file_named "") 5 Z.of_nat cfg_always 500 sdl_ex [] [(true, true)] world0 = Ok (SdlRan (Some (-1)) world0 gfx_start None) /\
  sdl_main (file_named "") 5 Z.of_nat cfg_always 500 sdl_ex [bs "b"] [(true, true)] world0 = Ok (SdlRan (Some (-2)) world0 gfx_start None) /\
  sdl_main (file_named "") 5 Z.of_nat cfg_always 500 (MkSdl false (sdl_window sdl_ex) (sdl_keys sdl_ex)) [bs "b"] [(true, true)] world0 =
    Ok (SdlRan (Some 1) world0 gfx_start None).
Proof. do 5 (split; [first [vm_compute; reflexivity|eexists; vm_compute; reflexivity]|]). vm_compute. reflexivity. Qed.
(** The pictures of the first program are small, and a program can crash the driver
    with one that is not. *)
Example C120_ex : small_pictures (drawings sdl_ex [] dot_calls) /\
  game_run "function main()
  video(100000, 100000)
end
"%string [(true, true)] = Stuck SOverflow.
Proof.
  split.
  - intros a wd h I. vm_compute in I. repeat (destruct I as [I|I]; [inversion I; subst|]); try contradiction.
    cbn [a_window a_surface]. split; [lia|]. split; [vm_compute; discriminate|]. split; [vm_compute; discriminate|]. split; [reflexivity|].
    intros l El. injection El as <-. reflexivity.
  - vm_compute. reflexivity.
Qed.

Print Assumptions C119_game.
Print Assumptions C119_same_answer.
Print Assumptions C119_exit_codes.
Print Assumptions C120_binds_all.
Print Assumptions C120_offers.
Print Assumptions C120_verified.
Print Assumptions C120_calls.
Print Assumptions C120_crashes.
