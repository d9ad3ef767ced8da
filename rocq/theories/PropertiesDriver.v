(** Properties of the command line interpreter: C106 and C107.  The vocabulary is
    that of DriverSpec.v. *)
From Coq Require Import ZArith List Bool Lia String.
From Verif Require Import PropertiesRun PropertiesSched.
From Verif Require SrcNames GcProofs GcFacts.
From Verif Require Import Base BaseFacts F32 Instr Program ProgramProofs VM AbsHeap Gc GcSpec Refine Host HostProofs Demo VmSpec Source Lexer Ast Parser
  Sema SemaSpec Optimize Codegen Build BuildSpec SrcSem OptSpec OptFacts SemaIds CgSpec CgLink CgRun CgFlow CgWell ParseFine
  RunSpec OptRun HostRun PropertiesOpt PropertiesCodegen PropertiesBuild SafeSpec PropertiesSafe SafeVmSpec SafeRun PropertiesSafeRun
  LineOrigin TextSpec PropertiesText PropertiesCompile PropertiesBuiltins ToolSpec DriverMain DriverSpec.
Import ListNotations.
Open Scope list_scope.
Open Scope Z_scope.

Lemma driver_load_all fs argv : forall m, driver_load fs m argv = load_all fs m argv.
Proof. induction argv as [|a r IH]; intros m; [reflexivity|]. cbn [driver_load load_all]. destruct (sm_load fs m a) as [[|] m']; [apply IH|reflexivity]. Qed.
Lemma build_nonempty fuel fs addr on regs m p : build fuel fs addr on regs m = Ok (Some p) -> m <> [].
Proof. intros B ->. discriminate B. Qed.
Lemma driver_started fs can fuel addr ff c N argv w m p : load_all fs [] argv = Some m ->
  build fuel fs addr true driver_regs m = Ok (Some p) ->
  driver_main fs can fuel addr ff c N argv w =
  driver_run ff c N (driver_resolve p) (if can then Some (serial_save (driver_resolve p)) else None) w.
Proof.
  intros L B. unfold driver_main. rewrite driver_load_all, L. destruct m as [|s m]; [discriminate B|]. rewrite B. reflexivity.
Qed.

(** Binding syscalls does not change the image. *)
Lemma w_list_names l l' : map s_name l = map s_name l' -> w_list (fun s => w_str (s_name s)) l = w_list (fun s => w_str (s_name s)) l'.
Proof.
  intros E. unfold w_list. f_equal.
  - f_equal. apply (f_equal zlen) in E. rewrite !zlen_map in E. exact E.
  - revert l' E. induction l as [|a l IH]; intros [|b l'] E; try discriminate; [reflexivity|]. cbn [map] in E. injection E as E1 E2. cbn [flat_map]. rewrite E1. f_equal. now apply IH.
Qed.
Lemma resolve_lines p : p_lines (driver_resolve p) = p_lines p.
Proof.
  unfold driver_resolve, builtins_resolve. cbn [p_lines]. generalize driver_map. intros t. revert p.
  induction t as [|x t IH]; intros p; cbn [fold_left]; [reflexivity|]. rewrite IH. reflexivity.
Qed.
Lemma same_image p : serial_save (driver_resolve p) = serial_save p.
Proof.
  pose proof (driver_bound p) as [B1 B2 B3 B4]. unfold serial_save. rewrite B1, B2, B3, resolve_lines. do 2 f_equal. now apply w_list_names.
Qed.

(** A result that print_result can show: no string has a zero byte. *)
Definition clean (x : shown) : Prop := x <> ShDangling /\ forall s, x = ShScalar (SStr s) -> ~ In 0 s.
Lemma host_shows prog fuel c op B v a b x e v' : prog_nonul prog -> op_nonul op -> VR B v a ->
  host_step prog (cfg_ops c) fuel op v = Ok (SeenCall b x e, v') -> clean x.
Proof.
  intros PO ON V E. destruct op as [f l|n| |f l| |i d]; cbn [host_step] in E.
  - apply bind_ok in E. destruct E as ([] & _ & E). apply bind_ok in E. destruct E as ([] & _ & E). discriminate E.
  - apply bind_ok in E. destruct E as ([] & _ & E). discriminate E.
  - apply bind_ok in E. destruct E as ([] & _ & E). discriminate E.
  - pose proof (ref_new_args c B l _ _ (vr_heap _ _ _ V) ON) as R1.
    destruct (new_args (cfg_ops c) (vm_heap v) l) as [[h ps]|?|?]; [|discriminate..]. cbn [bind] in E.
    destruct (new_args abs_ops (vm_heap a) l) as [[A vs]|?|?]; cbn [rrel] in R1; try contradiction. destruct R1 as (B' & Ex & HH & F). cbn [fst snd] in *.
    pose proof (ref_call_once (c_cap c) (c_fuel c) (c_policy c) prog fuel f B' (with_heap v h) (with_heap a A) ps vs PO (VR_with_heap _ _ _ _ _ _ V Ex HH) F) as R2.
    change (gc_ops_with (c_cap c) (c_fuel c) (c_policy c)) with (cfg_ops c) in R2.
    destruct (call_once (cfg_ops c) prog fuel (with_heap v h) f ps) as [[[[ok p] er] v1]|?|?]; [|discriminate..].
    destruct (call_once abs_ops prog fuel (with_heap a A) f vs) as [[[[ok' p'] er'] a1]|?|?]; cbn [rrel] in R2; try contradiction.
    destruct R2 as (_ & _ & B2 & V2 & R2). cbn [fst snd bind] in *. injection E as _ <- _ _. cbn [cfg_ops gc_ops_with h_view].
    destruct p as [k|], p' as [|s|o]; cbn [GcProofs.vrel] in R2; try contradiction; [| |split; [discriminate|intros s X; discriminate X]].
    + destruct R2 as [R2 So]. cbn [gc_view]. rewrite R2. cbn. split; [discriminate|]. intros t X. injection X as ->. exact So.
    + destruct (GcProofs.hr_obj _ _ _ (vr_heap _ _ _ V2) k o R2) as (qs & ws & R & Zn & Fo). cbn [gc_view]. rewrite R. cbn. split; [discriminate|]. intros t X. discriminate X.
  - apply bind_ok in E. destruct E as (y & _ & E). discriminate E.
  - destruct (split i v); [|discriminate E..]. apply bind_ok in E. destruct E as ([] & _ & E). discriminate E.
Qed.
Lemma print_line ff x : clean x -> print_result ff x = Ok (result_line ff x).
Proof.
  intros [D S]. unfold print_result, result_line, value_text. destruct x as [|[z|f|s|a|k]|n|]; try congruence; rewrite ?app_nil_r; try reflexivity.
  rewrite (GcProofs.cstr_nonul s); [reflexivity|now apply S].
Qed.

Lemma find_no_main fuel fs addr on regs m p q items n x : build fuel fs addr on regs m = Ok (Some p) -> bound p q ->
  analysed fuel fs addr regs m items n -> (on = true -> unshared items) -> x <> init_name -> named items x = None -> function_find q x = None.
Proof.
  intros B Bo (src & m' & E1 & E2) U Ni Na. destruct (build_parts _ _ _ _ _ _ _ B) as (src0 & m0 & items0 & n0 & items' & n' & F1 & F2 & P & O & P' & G).
  rewrite E1 in F1. inversion F1; subst src0 m0. rewrite E2 in F2. inversion F2; subst items0 n0.
  destruct (optimize_chain on items n items' n' (fun id => run_sema_ids _ _ _ _ id E2) U O) as (a & b & B1 & B2 & B3).
  apply (find_nothing items' n' p q G P' Bo); [|exact Ni].
  eapply named_same; [exact B3|]. eapply named_same; [exact B2|]. eapply named_same; [exact B1|exact Na].
Qed.
(** A function of the source is in the table, with as many arguments. *)
Lemma find_named fuel fs addr on regs m p q items n x f : build fuel fs addr on regs m = Ok (Some p) -> bound p q ->
  analysed fuel fs addr regs m items n -> (on = true -> unshared items) -> named items x = Some f ->
  exists g, function_find q x = Some g /\ num_args g = zlen (snd (fst f)).
Proof.
  intros B Bo (src & m' & E1 & E2) U Na. destruct (build_parts _ _ _ _ _ _ _ B) as (src0 & m0 & items0 & n0 & items' & n' & F1 & F2 & P & O & P' & G).
  rewrite E1 in F1. inversion F1; subst src0 m0. rewrite E2 in F2. inversion F2; subst items0 n0.
  destruct (optimize_chain on items n items' n' (fun id => run_sema_ids _ _ _ _ id E2) U O) as (a & b & B1 & B2 & B3).
  destruct (named_better _ _ B1 _ _ Na) as (f1 & N1 & K1). destruct (named_better _ _ B2 _ _ N1) as (f2 & N2 & K2).
  destruct (named_better _ _ B3 _ _ N2) as (f3 & N3 & K3). destruct (named_in items' _ _ N3) as [I Nm]. destruct f3 as [[f3 args] body]. cbn [fst] in Nm.
  destruct (find_function items' n' p q G P' Bo f3 args body I) as (g & Fg & Ng & _). exists g. rewrite Nm in Fg. split; [exact Fg|].
  destruct K1 as [K1 _], K2 as [K2 _], K3 as [K3 _]. cbn [fst] in K3. rewrite Ng, K1, K2, K3. reflexivity.
Qed.

Lemma main_not_init : bs "main" <> init_name.
Proof. discriminate. Qed.
Lemma main_nonul q : Forall op_nonul [call_op q (bs "main", [])].
Proof. constructor; [|constructor]. unfold call_op. destruct (function_find _ _); cbn [op_nonul snd]; constructor. Qed.

(** ** C106: the interpreter does what the source says

    [argv] names source files that can be loaded and compiled.  Exit code, output
    and input are those that the source means; temp.bin gets the image of the
    program.  The exceptions are an arena that is exhausted or a loop longer than
    the given bound, an initialisation of the globals that takes more than the
    8192 cycles that call_init grants, and stacks that outgrow 32 bits. *)
Theorem C106_says_what_the_source_says : forall fs can fuel addr ff c N argv w m p items n code w',
  load_all fs [] argv = Some m -> build fuel fs addr true driver_regs m = Ok (Some p) -> fits p ->
  analysed fuel fs addr driver_regs m items n -> unshared items ->
  let q := driver_resolve p in
  means ff items q w code w' ->
  goes_deep q N (abs_start 0 w) [HCallInit; call_op q (bs "main", [])] \/
  exhausted (driver_main fs can fuel addr ff c N argv w) \/
  (exists x v1, host_step q (cfg_ops c) N HCallInit (vm_start 0 w) = Ok (x, v1) /\ ~ init_done v1) \/
  driver_main fs can fuel addr ff c N argv w = Ok (Ran code w' (if can then Some (serial_save p) else None) None).
Proof.
  intros fs can fuel addr ff c N argv w m p items n code w' L B Fi A U q M.
  rewrite (driver_started _ _ _ _ _ _ _ _ _ _ _ L B), same_image. fold q. set (image := if can then Some (serial_save p) else None).
  pose proof (driver_bound p) as Bo. fold q in Bo. unfold driver_run.
  assert (Init : forall j b st, init_result (initial items (entry items q) (sys_index q) (vm_sys q) j (fresh_state w)) = Some (b, st) ->
    goes_deep q N (abs_start 0 w) [HCallInit; call_op q (bs "main", [])] \/
    exhausted (host_step q (cfg_ops c) N HCallInit (vm_start 0 w)) \/
    (exists x v1, host_step q (cfg_ops c) N HCallInit (vm_start 0 w) = Ok (x, v1) /\ ~ init_done v1) \/
    exists x v1, host_step q (cfg_ops c) N HCallInit (vm_start 0 w) = Ok (x, v1) /\ init_done v1).
  { intros j b st R. destruct (build_means _ _ _ _ _ _ _ q _ _ B A (fun _ => U)) as (items' & n' & P & G & MI & MS).
    apply MI in R. destruct (find_init items' n' p q G P Bo) as (g & Fg & _ & _).
    destruct (init_host items' n' p q G P Fi Bo 0 w g j b st Fg R) as (Gl & [O|(b' & va & Hs & K)]);
      [left; eapply deep_init; [exact Fg|exact O]|right].
    pose proof (ref_host_step q N c HCallInit _ _ _ (SrcNames.bound_nonul _ _ _ _ _ _ _ _ B Bo) Logic.I (VR_start 0 w)) as RR. rewrite (Hs N) in RR.
    destruct (host_step q (cfg_ops c) N HCallInit (vm_start 0 w)) as [[x v1]|e le|x]; [|contradiction|].
    - right. assert (D : init_done v1 \/ ~ init_done v1).
      { destruct (vm_threads v1) as [|t0 r] eqn:T using rev_ind.
        - right. intros (y & t & T' & _). rewrite T in T'. now destruct y.
        - destruct (t_fin t0) eqn:F; [left; now exists r, t0|]. right. intros (y & t & T' & F').
          rewrite T in T'. apply app_inj_tail in T'. destruct T' as [_ <-]. congruence. }
      destruct D; [right|left]; eauto.
    - left. unfold exhausted. destruct x; cbn in RR; try contradiction; auto. }
  inversion M as [f j st Na R|f j st n0 e st' Na R Ca|f j st n0 v st' Na R Ca|Na]; subst.
  - destruct (find_named _ _ _ _ _ _ _ _ _ _ _ _ B Bo A (fun _ => U) Na) as (g & Fg & _). rewrite Fg.
    destruct (Init _ _ _ R) as [D|[D|[D|(x & v1 & H & D)]]]; [now left| |right; right; now left|].
    { right; left. unfold exhausted in *. destruct D as [D|[D|D]]; rewrite D; cbn [bind]; auto. }
    destruct (C82_host_sees_source _ _ _ _ _ _ _ q _ _ B Fi Bo A (fun _ => U) _ _ _ _ R [] [] (next_call st) (session_end _ _ _ _ _) 0 N c x v1 H D [] eq_refl (Forall_nil _))
      as [De|(-> & W & _)].
    + left. inversion De as [? ? ? ? ?| |? ? ? ? ? H1 H2]; subst; [eapply deep_init; eassumption|]. inversion H2.
    + right; right; right. rewrite H. cbn [bind]. rewrite W. reflexivity.
  - destruct (find_named _ _ _ _ _ _ _ _ _ _ _ _ B Bo A (fun _ => U) Na) as (g & Fg & _). rewrite Fg.
    destruct (Init _ _ _ R) as [D|[D|[D|(x & v1 & H & D)]]]; [now left| |right; right; now left|].
    { right; left. unfold exhausted in *. destruct D as [D|[D|D]]; rewrite D; cbn [bind]; auto. }
    assert (S : session items (entry items q) (sys_index q) (vm_sys q) (next_call st) [(bs "main", [])] [SeenCall false ShNone (Some e)] (next_call st')).
    { eapply session_error; [exact Na|exact Ca|constructor]. }
    destruct (C82_host_sees_source _ _ _ _ _ _ _ q _ _ B Fi Bo A (fun _ => U) _ _ _ _ R _ _ _ S 0 N c x v1 H D [(c, call_op q (bs "main", []))] eq_refl (main_nonul q))
      as [De|(-> & W & E)]; [now left|]. right. rewrite H. cbn [bind].
    unfold host_gc in E. cbn [map host_run fst snd] in E. unfold call_op in E. cbn [fst snd] in E. rewrite Fg in E.
    destruct E as [E|(v2 & E & W2)].
    + left. unfold exhausted in *. destruct (host_step q (cfg_ops c) N (HCallOnce g []) v1) as [[y v2]|?|z]; cbn [bind] in *; [destruct E as [E|[E|E]]; discriminate E..|].
      destruct E as [E|[E|E]]; inversion E; subst; auto.
    + right; right. apply bind_ok in E. destruct E as ([y v3] & E1 & E2). injection E2 as -> ->. rewrite E1. cbn [bind]. rewrite W2. reflexivity.
  - destruct (find_named _ _ _ _ _ _ _ _ _ _ _ _ B Bo A (fun _ => U) Na) as (g & Fg & _). rewrite Fg.
    destruct (Init _ _ _ R) as [D|[D|[D|(x & v1 & H & D)]]]; [now left| |right; right; now left|].
    { right; left. unfold exhausted in *. destruct D as [D|[D|D]]; rewrite D; cbn [bind]; auto. }
    assert (S : session items (entry items q) (sys_index q) (vm_sys q) (next_call st) [(bs "main", [])] [SeenCall true (shown_value st' v) None] (next_call st')).
    { eapply session_value; [exact Na|exact Ca|constructor]. }
    destruct (C82_host_sees_source _ _ _ _ _ _ _ q _ _ B Fi Bo A (fun _ => U) _ _ _ _ R _ _ _ S 0 N c x v1 H D [(c, call_op q (bs "main", []))] eq_refl (main_nonul q))
      as [De|(-> & W & E)]; [now left|]. right. rewrite H. cbn [bind].
    unfold host_gc in E. cbn [map host_run fst snd] in E. unfold call_op in E. cbn [fst snd] in E. rewrite Fg in E.
    destruct E as [E|(v2 & E & W2)].
    + left. unfold exhausted in *. destruct (host_step q (cfg_ops c) N (HCallOnce g []) v1) as [[y v2]|?|z]; cbn [bind] in *; [destruct E as [E|[E|E]]; discriminate E..|].
      destruct E as [E|[E|E]]; inversion E; subst; auto.
    + right; right. apply bind_ok in E. destruct E as ([y v3] & E1 & E2). injection E2 as -> ->. rewrite E1. cbn [bind].
      assert (Cl : clean (shown_value st' v)).
      { pose proof (SrcNames.bound_nonul _ _ _ _ _ _ _ _ B Bo) as PN.
        pose proof (ref_host_step q N c HCallInit _ _ _ PN Logic.I (VR_start 0 w)) as R0. rewrite H in R0.
        destruct (host_step q abs_ops N HCallInit (abs_start 0 w)) as [[x0 va]|? ?|?]; cbn [rrel] in R0; try contradiction. destruct R0 as [_ [B0 V0]]. cbn [snd] in V0.
        eapply (host_shows q N c (HCallOnce g [])); [exact PN|constructor|exact V0|exact E1]. }
      rewrite (print_line ff _ Cl). cbn [bind]. rewrite W2. reflexivity.
  - right; right; right. rewrite (find_no_main _ _ _ _ _ _ _ _ _ _ _ B Bo A (fun _ => U) main_not_init Na). reflexivity.
Qed.

(** ** Refusals

    The interpreter gives up with a code of its own: a file that cannot be read,
    no file at all, sources that do not compile, or no main.  Nothing is printed
    on standard output or read then, and temp.bin is written only in the last
    case. *)
Theorem C106_refusals : forall fs can fuel addr ff c N argv w x,
  driver_main fs can fuel addr ff c N argv w = Ok x ->
  match load_all fs [] argv with
  | None => x = Ran (-2) w None None
  | Some [] => argv = [] /\ x = Ran (-1) w None None
  | Some m =>
      match build fuel fs addr true driver_regs m with
      | Ok (Some p) =>
          d_image x = (if can then Some (serial_save p) else None) /\ d_blame x = None /\
          match function_find p (bs "main") with
          | None => d_code x = -4 /\ d_world x = w
          | Some _ => d_code x = 0 \/ d_code x = -5 \/ d_code x = -6
          end
      | Err e l => x = Ran 1 w None (Some (e, l))
      | _ => False
      end
  end.
Proof.
  intros fs can fuel addr ff c N argv w x E. unfold driver_main in E. rewrite driver_load_all in E.
  destruct (load_all fs [] argv) as [[|s m]|] eqn:L.
  - split; [|now injection E as <-]. destruct argv as [|a r]; [reflexivity|exfalso]. cbn [load_all] in L. unfold sm_load in L. cbn [existsb] in L.
    destruct (load_from_file fs a) as [[|] s]; [|discriminate]. cbn [app] in L.
    assert (K : forall r m0, m0 <> [] -> load_all fs m0 r <> Some []).
    { clear. induction r as [|b r IH]; intros m0 H; cbn [load_all]; [congruence|]. unfold sm_load. destruct (existsb _ m0); [now apply IH|].
      destruct (load_from_file fs b) as [[|] s]; [|discriminate]. apply IH. now destruct m0. }
    apply (K r [s]); [discriminate|exact L].
  - destruct (build fuel fs addr true driver_regs (s :: m)) as [[p|]|e l|y] eqn:B; try discriminate.
    + rewrite same_image in E. unfold driver_run in E.
      assert (Ef : function_find (driver_resolve p) (bs "main") = function_find p (bs "main")).
      { unfold function_find. now rewrite (bo_functions _ _ (driver_bound p)). }
      rewrite Ef in E. destruct (function_find p (bs "main")) as [f|]; [|injection E as <-; repeat split].
      apply bind_ok in E. destruct E as ([y v1] & _ & E).
      destruct y as [[|]|? ? ?]; [|injection E as <-; cbn; auto..].
      apply bind_ok in E. destruct E as ([y v2] & _ & E). destruct y as [?|[|] r er]; try (injection E as <-; cbn; auto; fail).
      apply bind_ok in E. destruct E as (t & _ & E). injection E as <-. cbn. auto.
    + cbn [build] in B. apply bind_ok in B. destruct B as ([? ?] & _ & B). apply bind_ok in B. destruct B as (? & _ & B). discriminate B.
    + now injection E as <-.
  - now injection E as <-.
Qed.

(** ** Crashes

    If the interpreter does not end in an orderly way, then the compiler crashes
    on the sources, or there is one of the reasons of C100 (or a syscall value is
    called with a wrong number of arguments on the way). *)
Theorem C106_crashes : forall fs can fuel addr ff c N argv w e,
  (forall m p, load_all fs [] argv = Some m -> build fuel fs addr true driver_regs m = Ok (Some p) -> fits p) ->
  driver_main fs can fuel addr ff c N argv w = Stuck e ->
  exists m, load_all fs [] argv = Some m /\
  (build fuel fs addr true driver_regs m = Stuck e \/
   exists p f, build fuel fs addr true driver_regs m = Ok (Some p) /\ function_find p (bs "main") = Some f /\
     let q := driver_resolve p in let ops := [HCallInit; HCallOnce f []] in
     misused q ops (abs_start 0 w) \/ ends_badly q ops (abs_start 0 w) e).
Proof.
  intros fs can fuel addr ff c N argv w e Fi E. unfold driver_main in E. rewrite driver_load_all in E.
  destruct (load_all fs [] argv) as [[|s m]|] eqn:L; [discriminate| |discriminate]. exists (s :: m). split; [reflexivity|].
  destruct (build fuel fs addr true driver_regs (s :: m)) as [[p|]|?|y] eqn:B; try discriminate; [right|left; congruence].
  specialize (Fi (s :: m) p eq_refl B). unfold driver_run in E. set (q := driver_resolve p) in *. pose proof (driver_bound p) as Bo. fold q in Bo.
  assert (Ef : function_find q (bs "main") = function_find p (bs "main")).
  { unfold function_find. now rewrite (bo_functions _ _ Bo). }
  rewrite Ef in E. destruct (function_find p (bs "main")) as [f|] eqn:Ff; [|discriminate]. exists p, f. split; [reflexivity|]. split; [exact Ff|]. cbv zeta. fold q. set (ops := [HCallInit; HCallOnce f []]).
  assert (In0 : In f (p_functions q)). { unfold function_find in Ff. apply find_some in Ff. rewrite (bo_functions _ _ Bo). apply Ff. }
  pose proof (C100_from_text fuel fs addr true driver_regs (s :: m) p (incl_refl _) B Fi 0 w N [(c, HCallInit); (c, HCallOnce f [])]) as R.
  cbv zeta in R. fold q in R. cbn [map snd] in R. fold ops in R.
  destruct R as [M|R]; [repeat constructor|constructor; [exact Logic.I|constructor; [split; [exact In0|constructor]|constructor]]|left; exact M|right].
  unfold host_gc in R. cbn [map host_run fst snd] in R.
  destruct (host_step q (cfg_ops c) N HCallInit (vm_start 0 w)) as [[x v1]|? ?|y]; cbn [bind] in *; [|discriminate|congruence].
  destruct x as [[|]|? ? ?]; try discriminate.
  destruct (host_step q (cfg_ops c) N (HCallOnce f []) v1) as [[x v2]|? ?|y]; cbn [bind] in *; [|discriminate|congruence].
  destruct x as [?|[|] r er]; try discriminate. exfalso. destruct R as (_ & _ & R). specialize (R true r er (or_intror (or_introl eq_refl))).
  destruct r; cbn in R, E; try discriminate; contradiction.
Qed.

(** Finding: a main with parameters is called without arguments all the same, and
    the interpreter dereferences a null pointer. *)
Theorem C106_main_with_parameters : forall fs can fuel addr ff c N argv w m p items n f v1,
  load_all fs [] argv = Some m -> build fuel fs addr true driver_regs m = Ok (Some p) ->
  analysed fuel fs addr driver_regs m items n -> unshared items ->
  named items (bs "main") = Some f -> snd (fst f) <> [] ->
  let q := driver_resolve p in
  host_step q (cfg_ops c) N HCallInit (vm_start 0 w) = Ok (SeenFlag true, v1) ->
  driver_main fs can fuel addr ff c N argv w = Stuck SNull \/ exhausted (driver_main fs can fuel addr ff c N argv w).
Proof.
  intros fs can fuel addr ff c N argv w m p items n f v1 L B A U Na Pa q H.
  rewrite (driver_started _ _ _ _ _ _ _ _ _ _ _ L B). fold q. unfold driver_run. pose proof (driver_bound p) as Bo. fold q in Bo.
  destruct (find_named _ _ _ _ _ _ _ _ _ _ _ _ B Bo A (fun _ => U) Na) as (g & -> & Ng). rewrite H. cbn [bind].
  pose proof (SrcNames.bound_nonul _ _ _ _ _ _ _ _ B Bo) as PN.
  pose proof (ref_host_step q N c HCallInit _ _ _ PN Logic.I (VR_start 0 w)) as R0. rewrite H in R0.
  destruct (host_step q abs_ops N HCallInit (abs_start 0 w)) as [[x0 va]|? ?|?]; cbn [rrel] in R0; try contradiction. destruct R0 as [_ [B0 V0]]. cbn [snd] in V0.
  pose proof (ref_host_step q N c (HCallOnce g []) _ _ _ PN (Forall_nil _) V0) as R1.
  assert (E : host_step q abs_ops N (HCallOnce g []) va = Stuck SNull).
  { cbn [host_step new_args bind]. unfold call_once, vm_new_thread, new_thread. rewrite Ng.
    destruct (zlen (snd (fst f)) =? zlen (@nil aval)) eqn:Z0.
    { exfalso. apply Pa. destruct (snd (fst f)) as [|d l]; [reflexivity|]. rewrite zlen_cons, zlen_nil in Z0. pose proof (zlen_nonneg l). lia. }
    cbn [bind]. destruct va as [h g0 w0 ts].
    reflexivity. }
  rewrite E in R1. destruct (host_step q (cfg_ops c) N (HCallOnce g []) v1) as [?|? ?|y]; cbn [rrel] in R1; try contradiction.
  cbn [bind]. unfold exhausted. destruct y; try discriminate R1; auto; contradiction.
Qed.

(** ** temp.bin

    What the interpreter leaves in temp.bin is the program: read back and bound to
    the same functions it behaves the same in every history, and its addresses
    have the same lines. *)
Lemma load_all_loaded fs argv : forall sm m, loaded sm -> load_all fs sm argv = Some m -> loaded m.
Proof.
  induction argv as [|a r IH]; intros sm m H E; cbn [load_all] in E; [congruence|]. destruct (sm_load fs sm a) as [[|] sm'] eqn:S0; [|discriminate].
  apply (IH sm' m); [|exact E]. replace sm' with (snd (sm_load fs sm a)) by (now rewrite S0). now apply loaded_file.
Qed.
Lemma run_image ff c N q im w x : driver_run ff c N q im w = Ok x -> d_image x = im.
Proof.
  unfold driver_run. intros E. destruct (function_find q (bs "main")) as [f|]; [|now injection E as <-].
  apply bind_ok in E. destruct E as ([y v1] & _ & E). destruct y as [[|]|? ? ?]; try (now injection E as <-).
  apply bind_ok in E. destruct E as ([y v2] & _ & E). destruct y as [?|[|] r er]; try (now injection E as <-).
  apply bind_ok in E. destruct E as (t & _ & E). now injection E as <-.
Qed.
Theorem C106_temp_bin : forall fs fuel addr ff c N argv w x m src m' p old,
  driver_main fs true fuel addr ff c N argv w = Ok x ->
  load_all fs [] argv = Some m -> parse_sources fuel fs m 0 [] [] = Ok (src, m') ->
  build fuel fs addr true driver_regs m = Ok (Some p) -> fits p -> 
  zlen m' <= i32_max -> (forall s data, In s m' -> so_data s = Some data -> bytes_ok data /\ zlen data < 2 ^ 31) ->
  Forall (fun x => zlen x < 256) (names_in p ++ p_strings p) ->
  exists data q', d_image x = Some data /\ serial_load old data = Ok (true, Some q') /\
    (forall N l v, host_gc (driver_resolve q') N l v = host_gc (driver_resolve p) N l v) /\
    (forall pc, Program.get_line q' pc = Program.get_line p pc).
Proof.
  intros fs fuel addr ff c N argv w x m src m' p old D L P B F Z1 Z2 S1.
  destruct (C105_image_is_the_program fuel fs addr true driver_regs m src m' p old) as (q' & E & H1 & H2); try assumption.
  { eapply load_all_loaded; [|exact L]. apply loaded_none. }
  { apply (all_b (fun r => str_wfb (fst r))); [intros; now apply str_wfb_ok|]. vm_compute. reflexivity. }
  exists (serial_save p), q'. split; [|auto].
  rewrite (driver_started _ _ _ _ _ _ _ _ _ _ _ L B) in D. apply run_image in D. rewrite D, same_image. reflexivity.
Qed.

(** ** C107: the interpreter binds every syscall of every program it compiles,
    to a function with that name that takes the registered number of arguments *)
Theorem C107_driver_binds_all : forall fuel fs addr m p, build fuel fs addr true driver_regs m = Ok (Some p) ->
  zlen (p_syscalls (driver_resolve p)) = zlen driver_regs /\
  forall i name k, znth driver_regs i = Some (name, k) ->
    exists f, znth (p_syscalls (driver_resolve p)) i = Some (Sysc name (Some f)) /\ In name (names_of f) /\ takes f k.
Proof.
  intros fuel fs addr m p B. destruct (C107_syscall_table _ _ _ _ _ _ _ B) as [T _]. split.
  - pose proof (f_equal zlen (bo_syscalls _ _ (driver_bound p))) as E. rewrite !zlen_map in E. rewrite E, T, zlen_map. reflexivity.
  - intros i name k I0.
    assert (E : znth (p_syscalls p) i = Some (Sysc name None)) by (rewrite T, znth_map, I0; reflexivity).
    assert (J : In (name, k) (driver_arity ++ builtin_arity)).
    { apply znth_In in I0. unfold driver_regs in I0. rewrite in_app_iff in *. tauto. }
    destruct (C71_registered_arity p (driver_resolve p) name k (or_intror (conj eq_refl J)) i _ E eq_refl) as (f & E1 & E2).
    destruct (C71_bound_to_its_function p (driver_resolve p) name k (or_intror (conj eq_refl J)) i _ E eq_refl) as (g & E3 & E4).
    rewrite E1 in E3. injection E3 as ->. eauto.
Qed.

(** ** Programs that meet the hypotheses, and what they print *)
Definition say_text : string := "var g = 2
function twice(x)
  return x + x
end
function main()
  puts(""g is "" + g)
  g = twice(g)
  return g * 10
end
"%string.
Definition silent_text : string := "function main()
  puts(""hello"")
  return none
end
"%string.
Definition wants_text : string := "function main(x)
  return x
end
"%string.
Definition nothing_text : string := "var x = 1
"%string.
Definition fails_text : string := "function main()
  puts(""before"")
  return 1 + none
end
"%string.
Definition file_named (text : string) (path : bytes) : option bytes := if bytes_eqb path (bs "a.ccml") then Some (bs text) else None.
Definition say_argv : list bytes := [bs "a.ccml"].
Definition say_m (text : string) : list source_t := match load_all (file_named text) [] say_argv with Some m => m | None => [] end.
Definition say_prog (text : string) : program_t :=
  match build 5 (file_named text) Z.of_nat true driver_regs (say_m text) with Ok (Some p) => p | _ => Prog [] [] [] [] [] [] end.
Definition say_tree (text : string) : list ritem * nat :=
  match ('(src, _) <- parse_sources 5 (file_named text) (say_m text) 0 [] [] ;;
         run_sema Z.of_nat (map (fun r => CSys (fst r) (snd r)) driver_regs ++ map CItem src)) with
  | Ok r => r | _ => ([], 0%nat)
  end.
Definition no_float (f : f32) : bytes := bs "?".
Definition say_run (text : string) : res ran :=
  driver_main (file_named text) true 5 Z.of_nat no_float cfg_always 500 say_argv world0.
Lemma say_analysed text : snd (say_tree text) <> 0%nat ->
  analysed 5 (file_named text) Z.of_nat driver_regs (say_m text) (fst (say_tree text)) (snd (say_tree text)).
Proof.
  unfold say_tree. intros N.
  destruct (parse_sources 5 (file_named text) (say_m text) 0 [] []) as [[src m']|? ?|?] eqn:P; cbn [bind] in *; [|cbn in N; congruence..].
  destruct (run_sema Z.of_nat _) as [[i0 n0]|? ?|?] eqn:R; [|cbn in N; congruence..]. now exists src, m'.
Qed.
Definition say_start := init_result (initial (fst (say_tree say_text)) (entry (fst (say_tree say_text)) (driver_resolve (say_prog say_text)))
  (sys_index (driver_resolve (say_prog say_text))) (vm_sys (driver_resolve (say_prog say_text))) 50 (fresh_state world0)).
Definition say_world : world := w_put world0 (bs "g is 2" ++ [10] ++ bs "exit: 40" ++ [10]).
(** The first program, from its files to its output. *)
Example C106_ex :
  load_all (file_named say_text) [] say_argv = Some (say_m say_text) /\
  build 5 (file_named say_text) Z.of_nat true driver_regs (say_m say_text) = Ok (Some (say_prog say_text)) /\ fits (say_prog say_text) /\
  analysed 5 (file_named say_text) Z.of_nat driver_regs (say_m say_text) (fst (say_tree say_text)) (snd (say_tree say_text)) /\
  unshared (fst (say_tree say_text)) /\
  means no_float (fst (say_tree say_text)) (driver_resolve (say_prog say_text)) world0 0 say_world /\
  say_run say_text = Ok (Ran 0 say_world (Some (serial_save (say_prog say_text))) None).
Proof.
  split; [vm_compute; reflexivity|]. split; [vm_compute; reflexivity|]. split; [apply fitsb_ok; vm_compute; reflexivity|].
  split; [apply say_analysed; vm_compute; discriminate|]. split; [apply unshared_b_ok; vm_compute; reflexivity|]. split.
  - assert (E : exists f st v st', named (fst (say_tree say_text)) (bs "main") = Some f /\ say_start = Some (true, st) /\
        run_call (fst (say_tree say_text)) (entry (fst (say_tree say_text)) (driver_resolve (say_prog say_text)))
          (sys_index (driver_resolve (say_prog say_text))) (vm_sys (driver_resolve (say_prog say_text))) 50 f [] (next_call st) = Done (v, st') /\
        w_put (s_world st') (result_line no_float (shown_value st' v)) = say_world).
    { eexists _, _, _, _. split; [vm_compute; reflexivity|]. split; [vm_compute; reflexivity|]. split; vm_compute; reflexivity. }
    destruct E as (f & st & v & st' & E1 & E2 & E3 & <-). eapply means_result; [exact E1|exact E2|exact E3].
  - vm_compute. reflexivity.
Qed.
(** A result none leaves an empty line, an error in main is exit code -6, no main -4,
    no source -1, a file that is not there -2, an error in the source 1; and a main
    with a parameter crashes. *)
Example C106_others :
  (exists i, say_run silent_text = Ok (Ran 0 (w_put world0 (bs "hello" ++ [10] ++ bs "exit: none" ++ [10; 10])) (Some i) None)) /\
  (exists i, say_run fails_text = Ok (Ran (-6) (w_put world0 (bs "before" ++ [10])) (Some i) None)) /\
  (exists i, say_run nothing_text = Ok (Ran (-4) world0 (Some i) None)) /\
  driver_main (file_named "") true 5 Z.of_nat no_float cfg_always 500 [] world0 = Ok (Ran (-1) world0 None None) /\
  driver_main (file_named "") true 5 Z.of_nat no_float cfg_always 500 [bs "b"] world0 = Ok (Ran (-2) world0 None None) /\
  (exists e, say_run "end" = Ok (Ran 1 world0 None (Some e))) /\
  say_run wants_text = Stuck SNull.
Proof. repeat (split; [first [vm_compute; reflexivity|eexists; vm_compute; reflexivity]|]). vm_compute. reflexivity. Qed.
(** And the hypotheses of the finding about main with parameters. *)
Example C106_wants_ex : exists f v1, named (fst (say_tree wants_text)) (bs "main") = Some f /\ snd (fst f) <> [] /\
  unshared (fst (say_tree wants_text)) /\
  host_step (driver_resolve (say_prog wants_text)) (cfg_ops cfg_always) 500 HCallInit (vm_start 0 world0) = Ok (SeenFlag true, v1).
Proof.
  eexists _, _. split; [vm_compute; reflexivity|]. split; [discriminate|]. split; [apply unshared_b_ok; vm_compute; reflexivity|]. vm_compute. reflexivity.
Qed.

Print Assumptions C106_says_what_the_source_says.
Print Assumptions C106_refusals.
Print Assumptions C106_crashes.
Print Assumptions C106_main_with_parameters.
Print Assumptions C106_temp_bin.
Print Assumptions C107_driver_binds_all.
