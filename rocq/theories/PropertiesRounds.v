(** C117: a function that is run as a thread, a slice at a time, does what it does
    in one call. *)
From Coq Require Import ZArith List Bool Lia ZifyBool String.
From Verif Require Import PropertiesRun.
From Verif Require SrcNames.
From Verif Require Import Base BaseFacts F32 Instr Program VM AbsHeap Gc GcSpec Refine Host HostProofs Demo VmSpec Source Lexer Ast Parser
  Sema SemaSpec Optimize Codegen Build BuildSpec SrcSem OptSpec OptFacts SemaIds CgSpec CgLink CgRun CgFlow CgWell ParseFine
  RunSpec OptRun HostRun PropertiesOpt PropertiesCodegen PropertiesBuild Rounds DriverMain PropertiesDriver PropertiesSafe.
Import ListNotations.
Open Scope Z_scope.
Open Scope list_scope.

(** How a call ended: with a value or with an error. *)
Definition call_ends (o : outcome (aval * sst)) (r : aval + terr) (st : sst) : Prop :=
  o = match r with inl x => Done (x, st) | inr e => Error e st end.
Definition succeeds (r : aval + terr) : bool := match r with inl _ => true | inr _ => false end.
(** A thread that waits for a number of rounds that no wait should be for: it is
    negative (C65: it will not run again), or not a 32-bit number. *)
Definition odd_wait {P} (t : thread P) : Prop := ~ (0 <= t_waits t <= i32_max).
(** The thread [t] came to its end with the result [r]; the value is on top of its
    stack, as [get_return_value] expects. *)
Definition thread_shows (h : heap) (t : thread ptr) (r : aval + terr) (st : sst) : Prop :=
  t_fin t = true /\
  match r with
  | inl x => t_err t = None /\ exists p, hd_error (t_stk t) = Some p /\ show_view (gc_view h p) = shown_value st x
  | inr e => t_err t = Some e
  end.

(** A thread that will not run again, and that the vm will come to remove. *)
Definition at_rest {P} (t : thread P) : Prop := t_fin t = true /\ ~ odd_wait t.

(** ** Proof support *)
Section Better.
  Variables (items items' : list ritem) (q : program_t) (sx : bytes -> Z) (sys : Z -> list aval -> sst -> outcome (aval * sst)).
  Hypothesis B : Forall2 ibetter items items'.
  Lemma call_better x f n vs st r st' : named items x = Some f -> call_ends (run_call items (entry items q) sx sys n f vs st) r st' ->
    exists f', named items' x = Some f' /\ call_ends (run_call items' (entry items' q) sx sys n f' vs st) r st'.
  Proof.
    intros Na R. destruct (named_better items items' B _ _ Na) as (f' & Na' & F). exists f'. split; [exact Na'|].
    destruct (sim_all items items' (entry items q) (entry items' q) (better_entry items items' q B) sx sys B n) as (_ & _ & C & _).
    unfold call_ends in *. destruct (C f f' vs st F) as [T|T]; [rewrite T in R; destruct r; discriminate|now rewrite <- T].
  Qed.
End Better.
Lemma build_means_call fuel fs addr on regs m p q items n : build fuel fs addr on regs m = Ok (Some p) ->
  analysed fuel fs addr regs m items n -> (on = true -> unshared items) ->
  exists items' n', program_ok items' n' /\ generate items' n' = Ok p /\
    (forall sys j st r, init_result (initial items (entry items q) (sys_index q) sys j st) = Some r ->
       init_result (initial items' (entry items' q) (sys_index q) sys j st) = Some r) /\
    (forall sys x f n vs st r st', named items x = Some f -> call_ends (run_call items (entry items q) (sys_index q) sys n f vs st) r st' ->
       exists f', named items' x = Some f' /\ call_ends (run_call items' (entry items' q) (sys_index q) sys n f' vs st) r st').
Proof.
  intros B (src & m' & E1 & E2) U. destruct (build_parts _ _ _ _ _ _ _ B) as (src0 & m0 & items0 & n0 & items' & n' & F1 & F2 & P & O & P' & G).
  rewrite E1 in F1. inversion F1; subst src0 m0. rewrite E2 in F2. inversion F2; subst items0 n0.
  destruct (optimize_chain on items n items' n' (fun id => run_sema_ids _ _ _ _ id E2) U O) as (a & b & B1 & B2 & B3).
  exists items', n'. split; [exact P'|]. split; [exact G|]. split.
  - intros sys j st r R. eapply init_better; [exact B3|]. eapply init_better; [exact B2|]. eapply init_better; [exact B1|exact R].
  - intros sys x f k vs st r st' Na R. destruct (call_better _ _ q _ _ B1 _ _ _ _ _ _ _ Na R) as (f1 & Na1 & R1).
    destruct (call_better _ _ q _ _ B2 _ _ _ _ _ _ _ Na1 R1) as (f2 & Na2 & R2). exact (call_better _ _ q _ _ B3 _ _ _ _ _ _ _ Na2 R2).
Qed.

(** A part of a run. *)
Lemma abs_run_front q N l1 : forall l2 v xs v', abs_run q N (l1 ++ l2) v = Ok (xs, v') ->
  exists v1, abs_run q N l1 v = Ok (firstn (List.length l1) xs, v1).
Proof.
  induction l1 as [|o l1 IH]; intros l2 v xs v' E; [now exists v|]. unfold abs_run in E. cbn [app map host_run] in E.
  apply bind_ok in E. destruct E as ([x v1] & E1 & E). apply bind_ok in E. destruct E as ([ys v2] & E2 & E). inversion E; subst.
  destruct (IH l2 v1 ys v' E2) as (v3 & E3). exists v3. cbn [List.length firstn]. exact (abs_run_S q N o l1 v x v1 _ v3 E1 E3).
Qed.
Lemma firstn_repeat_app A (x : A) k n l : (k <= n)%nat -> firstn k (repeat x n ++ l) = repeat x k.
Proof. revert n. induction k as [|k IH]; intros n L; [reflexivity|]. destruct n as [|n]; [lia|]. cbn [repeat app firstn]. f_equal. apply IH. lia. Qed.
Lemma rounds_before q N c v (x : seen) n xs v' k : abs_run q N (repeat (HResume c) n) v = Ok (xs, v') -> (k <= n)%nat ->
  exists v1, abs_run q N (repeat (HResume c) k) v = Ok (firstn k xs, v1).
Proof.
  intros E L. replace n with (k + (n - k))%nat in E by lia. rewrite repeat_app in E. destruct (abs_run_front _ _ _ _ _ _ _ E) as (v1 & E1).
  rewrite repeat_length in E1. eauto.
Qed.

(** ** C117

    The sources are compiled and the globals initialised, without starting
    threads.  The host starts a function of the source as a thread and resumes the
    vm with [c] cycles at a time.  If a call of the function has a meaning and
    starts no threads itself, then after a number of rounds the thread has
    finished with that result and the world is as the source says; all rounds
    before the last report success, and the last one reports whether there was an
    error.  It does not matter how long the slices are, nor when the collector
    runs, nor that the function waits.  The exceptions are an exhausted arena,
    stacks that outgrow 32 bits and waits for a negative number of rounds. *)
Theorem C117_rounds_make_a_call : forall fuel fs addr on regs m p q items n,
  build fuel fs addr on regs m = Ok (Some p) -> fits p -> bound p q ->
  analysed fuel fs addr regs m items n -> (on = true -> unshared items) ->
  forall j w b st, init_result (initial items (entry items q) (sys_index q) (vm_sys q) j (fresh_state w)) = Some (b, st) -> s_new st = [] ->
  forall x f g vs i r st', named items x = Some f -> function_find q x = Some g ->
  call_ends (run_call items (entry items q) (sys_index q) (vm_sys q) i f (map passed vs) (next_call st)) r st' -> s_new st' = [] ->
  forall k N c0 y v1, host_step q (cfg_ops c0) N HCallInit (vm_start k w) = Ok (y, v1) -> init_done v1 ->
  forall c, (1 <= c)%nat -> Forall op_nonul [HThread g vs] ->
  (exists g0, function_find q (bs "@init") = Some g0 /\ overflows q (starting q (abs_start k w) g0 [])) \/
  (exists va, host_step q abs_ops N HCallInit (abs_start k w) = Ok (y, va) /\ overflows q (starting q va g vs)) \/
  Exists odd_wait (vm_threads v1) \/
  (exists K,
   (forall k l, (k <= K)%nat -> map snd l = HThread g vs :: repeat (HResume c) k ->
     exhausted (host_gc q N l v1) \/ exists v2, host_gc q N l v1 = Ok (repeat (SeenFlag true) (S k), v2)) /\
   forall l, map snd l = HThread g vs :: repeat (HResume c) (S K) ->
     exhausted (host_gc q N l v1) \/
     exists v2 t ts, host_gc q N l v1 = Ok (repeat (SeenFlag true) (S K) ++ [SeenFlag (succeeds r)], v2) /\
       vm_world v2 = s_world st' /\ vm_threads v2 = t :: ts /\ thread_shows (vm_heap v2) t r st' /\ Forall at_rest ts) \/
  (exists K, forall k l, (k <= K)%nat -> map snd l = HThread g vs :: repeat (HResume c) k ->
     exhausted (host_gc q N l v1) \/
     exists v2, host_gc q N l v1 = Ok (repeat (SeenFlag true) (S k), v2) /\ (k = K -> Exists odd_wait (vm_threads v2))).
Proof.
  intros fuel fs addr on regs m p q items n B Fi Bo A U j w b st R Ne x f g vs i r st' Na Fg Ca Ne' k N c0 y v1 H D c Pos ON.
  pose proof (SrcNames.bound_nonul _ _ _ _ _ _ _ _ B Bo) as PN.
  destruct (build_means_call _ _ _ _ _ _ _ q _ _ B A U) as (items' & n' & P & G & MI & MC).
  apply MI in R. destruct (MC _ _ _ _ _ _ _ _ Na Ca) as ([[f1 args] body] & Na1 & Ca1).
  destruct (find_init items' n' p q G P Bo) as (g0 & Fg0 & _ & _).
  destruct (init_host items' n' p q G P Fi Bo k w g0 j b st Fg0 R) as (Gl & [O|(b' & va & Hs & Kd)]); [left; exists g0; auto|].
  destruct (init_threads items' n' p q G P Fi Bo k w g0 j b st Fg0 R) as [O|Th]; [left; exists g0; auto|].
  pose proof (ref_host_step q N c0 HCallInit _ _ _ PN Logic.I (VR_start k w)) as RR. rewrite H, (Hs N) in RR.
  destruct RR as [Rx (B' & V)]. cbn [fst snd] in Rx, V. subst y.
  pose proof (init_done_ref _ _ _ V D) as Da. destruct (Kd Da) as [-> Hold]. destruct (Th N _ _ (Hs N) Da) as (t0 & T0 & F0). rewrite Ne in T0. cbn [app] in T0.
  destruct (named_in items' _ _ Na1) as [I1 Nm]. cbn [fst] in Nm. rewrite <- Nm in Fg.
  assert (W0 : good_wait t0 \/ ~ good_wait t0) by (unfold good_wait; lia). destruct W0 as [W0|W0].
  2: { right; right; left. pose proof (vr_threads _ _ _ V) as R1. rewrite T0 in R1. inversion R1 as [|t1 ? ? ? R2 R3 Eq]; subst.
       constructor. unfold odd_wait. rewrite (tr_waits _ _ _ _ R2). exact W0. }
  assert (Pa : Forall parked (vm_threads va)) by (rewrite T0; repeat constructor; [exact F0|apply W0|apply W0]).
  destruct (thread_ends items' n' p q G P Fi Bo (spare items' k) i f1 args body vs (next_call st) va g r st' N c I1 Fg Gl eq_refl Hold Pa Ca1 Ne' Pos)
    as [O|(v0 & Ht & E)]; [right; left; exists va; split; [apply Hs|exact O]|]. right; right; right.
  assert (Go : forall k l va', abs_run q N (repeat (HResume c) k) v0 = Ok (repeat (SeenFlag true) k, va') ->
    map snd l = HThread g vs :: repeat (HResume c) k ->
    exhausted (host_gc q N l v1) \/ exists v2 B2, host_gc q N l v1 = Ok (repeat (SeenFlag true) (S k), v2) /\ VR B2 v2 va').
  { intros k' l va' E' L.
    assert (ON' : Forall op_nonul (map snd l)).
    { rewrite L. inversion ON; subst. constructor; [assumption|]. apply Forall_forall. intros o Io. apply repeat_spec in Io. subst o. exact Logic.I. }
    pose proof (ref_host_run q N l _ _ _ PN ON' V) as RH. rewrite L, (abs_run_S _ _ _ _ _ _ _ _ _ Ht E') in RH.
    destruct (host_gc q N l v1) as [[ys v2]|?|z]; cbn in RH; try contradiction; [right|left; unfold exhausted; destruct z; try contradiction; auto].
    destruct RH as [RY (B2 & V2)]. cbn [fst snd] in RY, V2. subst ys. exists v2, B2. split; [reflexivity|exact V2]. }
  destruct E as [(K & v' & E & O)|(K & v' & E & O)].
  - left. exists K. split.
    { intros k' l Lk L. destruct (rounds_before _ _ _ _ (SeenFlag true) _ _ _ k' E ltac:(lia)) as (va' & E'). rewrite firstn_repeat_app in E' by exact Lk.
      destruct (Go _ _ _ E' L) as [X|(v2 & _ & X & _)]; [left|right]; eauto. }
    intros l L.
    assert (ON' : Forall op_nonul (map snd l)).
    { rewrite L. inversion ON; subst. constructor; [assumption|]. apply Forall_forall. intros o Io. apply repeat_spec in Io. subst o. exact Logic.I. }
    pose proof (ref_host_run q N l _ _ _ PN ON' V) as RH. rewrite L, (abs_run_S _ _ _ _ _ _ _ _ _ Ht E) in RH.
    destruct (host_gc q N l v1) as [[ys v2]|?|z]; cbn in RH; try contradiction; [right|left; unfold exhausted; destruct z; try contradiction; auto].
    destruct RH as [RY (B2 & V2)]. cbn [fst snd] in RY, V2. subst ys.
    destruct O as (ta & tsa & Ta & Pt & Ho & Fa & Ra). pose proof (vr_threads _ _ _ V2) as R2. rewrite Ta in R2. inversion R2 as [|t ? ts ? Rt Rts Eq]; subst.
    exists v2, t, ts. split; [reflexivity|]. split; [rewrite (vr_world _ _ _ V2); apply Ho|]. split; [exact (eq_sym Eq)|].
    split. 2: { clear - Pt Rts. induction Rts as [|t1 ta1 ts tas Rt1 Rts IH]; [constructor|]. inversion Pt as [|? ? [P1 P2] P3]; subst.
                constructor; [|exact (IH P3)]. unfold at_rest, odd_wait. rewrite (tr_fin _ _ _ _ Rt1), (tr_waits _ _ _ _ Rt1). split; [exact P1|]. intros X. exact (X P2). }
    split; [rewrite (tr_fin _ _ _ _ Rt); exact Fa|]. destruct r as [xv|e].
    + destruct Ra as [Ra1 Ra2]. split; [rewrite (tr_err _ _ _ _ Rt); exact Ra1|]. pose proof (tr_stk _ _ _ _ Rt) as Rs.
      destruct (t_stk ta) as [|a0 sa]; [discriminate|]. injection Ra2 as ->. inversion Rs as [|p0 ? ? ? Rv]; subst. exists p0. split; [reflexivity|].
      unfold shown_value. replace (s_heap st') with (vm_heap v') by apply Ho. eapply show_rel; [apply V2|exact Rv].
    + rewrite (tr_err _ _ _ _ Rt). exact Ra.
  - right. exists K. intros k' l Lk L.
    destruct (rounds_before _ _ _ _ (SeenFlag true) _ _ _ k' E Lk) as (va' & E').
    replace (repeat (SeenFlag true) K) with (repeat (SeenFlag true) K ++ []) in E' by apply app_nil_r. rewrite firstn_repeat_app in E' by exact Lk.
    destruct (Go _ _ _ E' L) as [X|(v2 & B2 & X & V2)]; [left; exact X|right]. exists v2. split; [exact X|]. intros ->. rewrite E in E'. inversion E'; subst va'.
    destruct O as (ta & tsa & Ta & Wa). pose proof (vr_threads _ _ _ V2) as R2. rewrite Ta in R2. inversion R2 as [|t ? ts ? Rt Rts Eq]; subst.
    constructor. unfold odd_wait. rewrite (tr_waits _ _ _ _ Rt). exact Wa.
Qed.

(** When all threads are at rest, a round reports success, whatever they came to;
    it removes those that do not wait any more, takes one from the waits of the
    others, and changes nothing else. *)
Definition one_less {P} (t : thread P) : thread P := t_set_waits t (t_waits t - 1).
Definition still_waits {P} (t : thread P) : bool := negb (t_waits t =? 0).
Theorem C117_then_nothing : forall P H (ops : hops P H) q c v, Forall at_rest (vm_threads v) ->
  vm_resume ops q c v = Ok (true, Vm (vm_heap v) (vm_glob v) (vm_world v) (map one_less (filter still_waits (vm_threads v)))).
Proof.
  intros P H ops q c v R. unfold vm_resume.
  enough (X : forall ts n pre, (List.length ts <= n)%nat -> Forall at_rest ts ->
    vm_round ops q n c (vm_heap v) (vm_glob v) (vm_world v) pre ts = Ok (true, Vm (vm_heap v) (vm_glob v) (vm_world v) (pre ++ map one_less (filter still_waits ts))))
    by (apply (X _ _ []); [apply le_n|exact R]).
  clear R. induction ts as [|t ts IH]; intros n pre L F; [rewrite app_nil_r; destruct n; reflexivity|].
  destruct n as [|n]; [cbn in L; lia|]. inversion F as [|? ? [Fi Wt] F']; subst. cbn [vm_round filter List.length] in *. unfold still_waits at 1.
  destruct (t_waits t =? 0) eqn:E; cbn [negb].
  - rewrite Fi. cbn [orb]. apply IH; [lia|exact F'].
  - assert (0 <= t_waits t <= i32_max) as W by (unfold odd_wait in Wt; lia). unfold i32_max in W.
    unfold chk32. replace (in_i32 (t_waits t - 1)) with true by (unfold in_i32, i32_min, i32_max; lia). cbn [bind map].
    rewrite (IH n (pre ++ [t_set_waits t (t_waits t - 1)]) ltac:(lia) F'), <- app_assoc. reflexivity.
Qed.
(** In particular the result of a thread can be asked for only until the next round. *)
Corollary C117_result_is_gone : forall P H (ops : hops P H) q c v t, Forall at_rest (vm_threads v) ->
  In t (vm_threads v) -> t_waits t = 0 ->
  exists v', vm_resume ops q c v = Ok (true, v') /\ vm_threads v' = map one_less (filter still_waits (vm_threads v)) /\
    (List.length (vm_threads v') < List.length (vm_threads v))%nat.
Proof.
  intros P H ops q c v t R I W. eexists. split; [apply C117_then_nothing; exact R|]. split; [reflexivity|]. cbn [vm_threads]. rewrite map_length.
  clear R. induction (vm_threads v) as [|a l IH]; [contradiction|]. cbn [filter List.length].
  assert (Le : forall l0 : list (thread P), (List.length (filter still_waits l0) <= List.length l0)%nat)
    by (induction l0 as [|b l0 J]; cbn [filter List.length]; [lia|destruct (still_waits b); cbn [List.length]; lia]).
  destruct I as [->|I].
  - unfold still_waits at 1. rewrite W. cbn. specialize (Le l). lia.
  - specialize (IH I). destruct (still_waits a); cbn [List.length]; lia.
Qed.

(** ** A program that meets the hypotheses

    [work] prints, allocates and waits; in slices of seven instructions it takes 20
    rounds.  [spoil] ends with an error in its third round. *)
Definition work_text : string := "var g = 10
function work(n)
  var s = ""sum""
  while (n > 0)
    n = n - 1
    g = g + n
    s = s + "" "" + g
    wait(2)
    puts(s)
  end
  return s
end
function spoil()
  wait(1)
  return 1 + none
end
"%string.
Definition work_items : list ritem := fst (say_tree work_text).
Definition work_prog : program_t := driver_resolve (say_prog work_text).
Definition work_init := init_result (initial work_items (entry work_items work_prog) (sys_index work_prog) (vm_sys work_prog) 50 (fresh_state world0)).
Definition work_start : sst := match work_init with Some (_, st) => st | None => fresh_state world0 end.
Definition work_called (x : string) (vs : list (option scell)) : outcome (aval * sst) :=
  match named work_items (bs x) with
  | Some f => run_call work_items (entry work_items work_prog) (sys_index work_prog) (vm_sys work_prog) 50 f (map passed vs) (next_call work_start)
  | None => Undefined
  end.
Definition work_vm := host_step work_prog (cfg_ops cfg_always) 500 HCallInit (vm_start 0 world0).
Definition work_session (x : string) (vs : list (option scell)) (c n : nat) : res (list seen * vm ptr heap) :=
  match work_vm, function_find work_prog (bs x) with
  | Ok (_, v1), Some g => host_gc work_prog 500 (map (fun o => (cfg_always, o)) (HThread g vs :: repeat (HResume c) n)) v1
  | _, _ => Stuck SNull
  end.
Definition front_shows (r : res (list seen * vm ptr heap)) : option (bool * option terr * shown) :=
  match r with
  | Ok (_, v) => match vm_threads v with
                 | t :: _ => Some (t_fin t, t_err t, match t_stk t with p :: _ => show_view (gc_view (vm_heap v) p) | [] => ShNone end)
                 | [] => None
                 end
  | _ => None
  end.
Definition work_out : bytes := bs "sum 12" ++ [10] ++ bs "sum 12 13" ++ [10] ++ bs "sum 12 13 13" ++ [10].
Example C117_ex :
  build 5 (file_named work_text) Z.of_nat true driver_regs (say_m work_text) = Ok (Some (say_prog work_text)) /\ fits (say_prog work_text) /\
  bound (say_prog work_text) work_prog /\
  analysed 5 (file_named work_text) Z.of_nat driver_regs (say_m work_text) work_items (snd (say_tree work_text)) /\ unshared work_items /\
  work_init = Some (true, work_start) /\ s_new work_start = [] /\
  (exists y v1, work_vm = Ok (y, v1) /\ init_done v1 /\ Forall (fun t => ~ odd_wait t) (vm_threads v1)) /\
  match work_called "work" [Some (SInt 3)] with
  | Done (x, st') => x = AS (SStr (bs "sum 12 13 13")) /\ w_out (s_world st') = work_out /\ s_new st' = []
  | _ => False
  end /\
  match work_called "spoil" [] with Error e st' => e = e_bad_type_operation /\ s_new st' = [] | _ => False end.
Proof.
  split; [vm_compute; reflexivity|]. split; [apply fitsb_ok; vm_compute; reflexivity|]. split; [apply driver_bound|].
  split; [apply say_analysed; vm_compute; discriminate|]. split; [apply unshared_b_ok; vm_compute; reflexivity|].
  split; [vm_compute; reflexivity|]. split; [vm_compute; reflexivity|].
  split. { eexists _, _. split; [vm_compute; reflexivity|]. split; [eexists [], _; split; reflexivity|].
           constructor; [|constructor]. unfold odd_wait, i32_max. cbn. lia. }
  split; vm_compute; repeat split.
Qed.
(** What the host sees of them. *)
Example C117_seen :
  match work_session "work" [Some (SInt 3)] 7 20 with
  | Ok (seen, v) => seen = repeat (SeenFlag true) 21 /\ w_out (vm_world v) = work_out
  | _ => False
  end /\
  front_shows (work_session "work" [Some (SInt 3)] 7 20) = Some (true, None, ShScalar (SStr (bs "sum 12 13 13"))) /\
  front_shows (work_session "work" [Some (SInt 3)] 7 21) = None /\
  match work_session "spoil" [] 7 3 with Ok (seen, _) => seen = [SeenFlag true; SeenFlag true; SeenFlag true; SeenFlag false] | _ => False end /\
  match work_session "spoil" [] 7 4 with Ok (seen, _) => last seen (SeenFlag false) = SeenFlag true | _ => False end.
Proof. do 4 (split; [vm_compute; repeat split|]). vm_compute. reflexivity. Qed.
(** A vm whose threads are at rest. *)
Example C117_rest_ex :
  match work_session "work" [Some (SInt 3)] 7 20 with
  | Ok (_, v) => Forall (fun t => t_fin t = true /\ t_waits t = 0) (vm_threads v) /\ List.length (vm_threads v) = 1%nat
  | _ => False
  end.
Proof. vm_compute. repeat split. repeat constructor. Qed.

Print Assumptions C117_rounds_make_a_call.
Print Assumptions C117_then_nothing.
Print Assumptions C117_result_is_gone.
