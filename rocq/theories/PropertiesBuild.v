(** Properties of the whole way from text to results: C82 and C83.  The
    vocabulary is that of RunSpec.v; the meaning of source programs is SrcSem.v. *)
From Coq Require Import ZArith List Bool Lia String.
From Verif Require Import PropertiesRun PropertiesSched.
From Verif Require SrcNames.
From Verif Require Import Base BaseFacts F32 Instr Program VM AbsHeap Gc GcSpec Refine Host HostProofs Demo VmSpec Source Lexer Ast Parser
  Sema SemaSpec Optimize Codegen Build BuildSpec SrcSem OptSpec OptFacts SemaIds CgSpec CgLink CgRun CgFlow CgWell ParseFine
  RunSpec OptRun HostRun PropertiesOpt PropertiesCodegen.
Import ListNotations.
Open Scope list_scope.
Open Scope Z_scope.

(** What [build] made its program of, and that it means the same. *)
Lemma build_means fuel fs addr on regs m p q items n : build fuel fs addr on regs m = Ok (Some p) ->
  analysed fuel fs addr regs m items n -> (on = true -> unshared items) ->
  exists items' n', program_ok items' n' /\ generate items' n' = Ok p /\
    (forall sys j st r, init_result (initial items (entry items q) (sys_index q) sys j st) = Some r ->
       init_result (initial items' (entry items' q) (sys_index q) sys j st) = Some r) /\
    (forall sys st calls xs st2, session items (entry items q) (sys_index q) sys st calls xs st2 ->
       session items' (entry items' q) (sys_index q) sys st calls xs st2).
Proof.
  intros B (src & m' & E1 & E2) U. destruct (build_parts _ _ _ _ _ _ _ B) as (src0 & m0 & items0 & n0 & items' & n' & F1 & F2 & P & O & P' & G).
  rewrite E1 in F1. inversion F1; subst src0 m0. rewrite E2 in F2. inversion F2; subst items0 n0.
  destruct (optimize_chain on items n items' n' (fun id => run_sema_ids _ _ _ _ id E2) U O) as (a & b & B1 & B2 & B3).
  exists items', n'. split; [exact P'|]. split; [exact G|]. split.
  - intros sys j st r R. eapply init_better; [exact B3|]. eapply init_better; [exact B2|]. eapply init_better; [exact B1|exact R].
  - intros sys st calls xs st2 R. eapply session_better; [exact B3|]. eapply session_better; [exact B2|]. eapply session_better; [exact B1|exact R].
Qed.

Lemma init_done_ref B v a : VR B v a -> init_done v -> init_done a.
Proof.
  intros V (young & t & T & F). pose proof (vr_threads _ _ _ V) as R. rewrite T in R.
  apply Forall2_app_inv_l in R. destruct R as (y' & l & _ & R & E). inversion R as [|? u ? l0 Rt R0]; subst. inversion R0; subst.
  exists y', u. split; [exact E|]. rewrite <- (tr_fin _ _ _ _ Rt). exact F.
Qed.

(** ** C82: what the host sees is what the source means

    The program [p] is what the compiler made of the sources in [m], with the
    optimiser on or off, and [q] is [p] with its syscalls bound by the host.  On
    a new vm, with any collector settings, [call_init] and then any calls show
    exactly what the source says, and what is printed and read on the way is what
    the source prints and reads: [init_result] and [session] are about the
    analysed source only.  The exceptions are an arena that is exhausted, a bound
    on the number of cycles that the host gave, and stacks that outgrow 32 bits. *)
Theorem C82_host_sees_source : forall fuel fs addr on regs m p q items n,
  build fuel fs addr on regs m = Ok (Some p) -> fits p -> bound p q ->
  analysed fuel fs addr regs m items n -> (on = true -> unshared items) ->
  forall j w b st, init_result (initial items (entry items q) (sys_index q) (vm_sys q) j (fresh_state w)) = Some (b, st) ->
  forall calls xs st2, session items (entry items q) (sys_index q) (vm_sys q) (next_call st) calls xs st2 ->
  forall k N c0 x v1, host_step q (cfg_ops c0) N HCallInit (vm_start k w) = Ok (x, v1) -> init_done v1 ->
  forall l, map snd l = map (call_op q) calls -> Forall op_nonul (map snd l) ->
  goes_deep q N (abs_start k w) (HCallInit :: map (call_op q) calls) \/
  x = SeenFlag b /\ vm_world v1 = s_world st /\
  (exhausted (host_gc q N l v1) \/ exists v2, host_gc q N l v1 = Ok (xs, v2) /\ vm_world v2 = s_world st2).
Proof.
  intros fuel fs addr on regs m p q items n B Fi Bo A U j w b st R calls xs st2 S k N c0 x v1 H D l L ON.
  pose proof (SrcNames.bound_nonul _ _ _ _ _ _ _ _ B Bo) as PN.
  destruct (build_means _ _ _ _ _ _ _ q _ _ B A U) as (items' & n' & P & G & MI & MS).
  apply MI in R. apply MS in S.
  destruct (find_init items' n' p q G P Bo) as (g & Fg & _ & _).
  destruct (init_host items' n' p q G P Fi Bo k w g j b st Fg R) as (Gl & [O|(b' & va & Hs & K)]);
    [left; eapply deep_init; [exact Fg|exact O]|].
  pose proof (ref_host_step q N c0 HCallInit _ _ _ PN Logic.I (VR_start k w)) as RR. rewrite H, (Hs N) in RR.
  destruct RR as [Rx (B' & V)]. cbn [fst snd] in Rx, V.
  destruct (K (init_done_ref _ _ _ V D)) as [-> Hold].
  destruct (session_run items' n' p q G P Fi Bo _ _ _ _ S (spare items' k) va) as (N0 & Run); [exact Gl|reflexivity|exact Hold|].
  pose proof (ref_host_run q N l _ _ _ PN ON V) as RH. rewrite L in RH.
  assert (W1 : vm_world v1 = s_world st) by (rewrite (vr_world _ _ _ V); apply Hold).
  destruct (Run N) as [De|[[_ De]|[v' [De Hv]]]].
  - left. eapply deep_later; [apply Hs|exact De].
  - right. split; [exact Rx|]. split; [exact W1|]. left. rewrite De in RH. unfold exhausted.
    destruct (host_gc q N l v1) as [?|?|[]]; cbn in RH; try contradiction; try discriminate; auto.
  - right. split; [exact Rx|]. split; [exact W1|]. rewrite De in RH. unfold exhausted.
    destruct (host_gc q N l v1) as [[ys v2]|?|[]]; cbn in RH; try contradiction; try discriminate; auto.
    right. destruct RH as [E (B2 & V2)]. cbn [fst snd] in E, V2. subst ys. exists v2. split; [reflexivity|]. rewrite (vr_world _ _ _ V2). apply Hv.
Qed.

(** ** C83: the calls end

    Given enough cycles and memory that is not exhausted (the heap of AbsHeap.v
    has no limit), every one of these calls comes back, with what the source
    means. *)
Theorem C83_host_gets_answers : forall fuel fs addr on regs m p q items n,
  build fuel fs addr on regs m = Ok (Some p) -> fits p -> bound p q ->
  analysed fuel fs addr regs m items n -> (on = true -> unshared items) ->
  forall j w b st, init_result (initial items (entry items q) (sys_index q) (vm_sys q) j (fresh_state w)) = Some (b, st) ->
  forall calls xs st2, session items (entry items q) (sys_index q) (vm_sys q) (next_call st) calls xs st2 ->
  forall k, exists N0, forall N, (N0 <= N)%nat ->
  goes_deep q N (abs_start k w) (HCallInit :: map (call_op q) calls) \/
  exists x v1, host_step q abs_ops N HCallInit (abs_start k w) = Ok (x, v1) /\
    (init_done v1 -> x = SeenFlag b /\ vm_world v1 = s_world st /\
       exists v2, abs_run q N (map (call_op q) calls) v1 = Ok (xs, v2) /\ vm_world v2 = s_world st2).
Proof.
  intros fuel fs addr on regs m p q items n B Fi Bo A U j w b st R calls xs st2 S k.
  destruct (build_means _ _ _ _ _ _ _ q _ _ B A U) as (items' & n' & P & G & MI & MS).
  apply MI in R. apply MS in S.
  destruct (find_init items' n' p q G P Bo) as (g & Fg & _ & _).
  destruct (init_host items' n' p q G P Fi Bo k w g j b st Fg R) as (Gl & [O|(b' & va & Hs & K)]);
    [exists 0%nat; intros N _; left; eapply deep_init; [exact Fg|exact O]|].
  assert (C : init_done va \/ ~ init_done va).
  { destruct (vm_threads va) as [|t0 r] eqn:T using rev_ind.
    - right. intros (y & t & T' & _). rewrite T in T'. now destruct y.
    - destruct (t_fin t0) eqn:F; [left; now exists r, t0|]. right. intros (y & t & T' & F').
      rewrite T in T'. apply app_inj_tail in T'. destruct T' as [_ <-]. congruence. }
  destruct C as [C|C].
  - destruct (K C) as [-> Hold].
    destruct (session_run items' n' p q G P Fi Bo _ _ _ _ S (spare items' k) va) as (N0 & Run); [exact Gl|reflexivity|exact Hold|].
    exists N0. intros N Le. destruct (Run N) as [De|[[Lt _]|[v' [De Hv]]]]; [|lia|].
    + left. eapply deep_later; [apply Hs|exact De].
    + right. exists (SeenFlag b), va. split; [apply Hs|]. intros _. split; [reflexivity|]. split; [apply Hold|]. exists v'. split; [exact De|apply Hv].
  - exists 0%nat. intros N _. right. exists (SeenFlag b'), va. split; [apply Hs|]. now intros D.
Qed.

(** ** Example

    Arrays, strings, a global that a call changes, a loop, an unused branch and a
    call that raises an error, with the optimiser on and a collection at every
    allocation. *)
Definition run_text : string := "var g = 1
function store(x)
  var a = [0, 1, 2]
  a[0] = x
  a[2] = ""it is "" + ""six""
  g = g + x
  if (2 < 1)
    g = 1000
  end
  return a[2]
end
function total()
  var i = 0
  var a = [1, 2, g]
  var s = 0
  while (i < 3)
    s = s + a[i]
    i = i + 1
  end
  return s
end
function bad(x)
  var a = [0, 1]
  g = g * 2
  return a[x]
end
"%string.
Definition run_m : list source_t := snd (sm_load_from_string [] (bs run_text)).
Definition run_build : res (option program_t) := build 5 (fun _ => None) Z.of_nat true [] run_m.
Definition run_prog : program_t := match run_build with Ok (Some p) => p | _ => Prog [] [] [] [] [] [] end.
Definition run_items : list ritem := fst (text_tree run_text).
Definition run_calls : list host_call :=
  [(bs "total", []); (bs "store", [Some (SInt 5)]); (bs "bad", [Some (SInt 2)]); (bs "total", [])].
Definition run_seen : list seen :=
  [SeenCall true (ShScalar (SInt 4)) None; SeenCall true (ShScalar (SStr (bs "it is six"))) None;
   SeenCall false ShNone (Some e_bad_array_bounds); SeenCall true (ShScalar (SInt 15)) None].
Definition run_init := init_result (initial run_items (entry run_items run_prog) (sys_index run_prog) (vm_sys run_prog) 50 (fresh_state world0)).
Definition run_start := match run_init with Some (_, st) => st | None => fresh_state world0 end.
Definition run_vm := host_step run_prog (cfg_ops cfg_always) 500 HCallInit (vm_start 0 world0).
(** The relation [session], computed with a bound on the depth of the calls. *)
Fixpoint session_run_b (items : list ritem) (q : program_t) (n : nat) (st : sst) (calls : list host_call) : option (list seen * sst) :=
  match calls with
  | [] => Some ([], st)
  | (x, vs) :: rest =>
      match named items x with
      | None => None
      | Some f =>
          match run_call items (entry items q) (sys_index q) (vm_sys q) n f (map passed vs) st with
          | Done (v, st') =>
              option_map (fun '(xs, s) => (SeenCall true (shown_value st' v) None :: xs, s)) (session_run_b items q n (next_call st') rest)
          | Error e st' => option_map (fun '(xs, s) => (SeenCall false ShNone (Some e) :: xs, s)) (session_run_b items q n (next_call st') rest)
          | _ => None
          end
      end
  end.
Lemma session_run_b_ok items q n calls : forall st xs st2, session_run_b items q n st calls = Some (xs, st2) ->
  session items (entry items q) (sys_index q) (vm_sys q) st calls xs st2.
Proof.
  induction calls as [|[x vs] rest IH]; cbn [session_run_b]; intros st xs st2 E; [inversion E; constructor|].
  destruct (named items x) as [f|] eqn:Na; [|discriminate].
  destruct (run_call _ _ _ _ n f _ st) as [[v st']|e st'| | ] eqn:R; try discriminate;
    (destruct (session_run_b items q n (next_call st') rest) as [[ys s2]|] eqn:Y; [|discriminate]; inversion E; subst; clear E).
  - eapply session_value; eauto.
  - eapply session_error; eauto.
Qed.
Definition run_end : sst := match session_run_b run_items run_prog 100 (next_call run_start) run_calls with Some (_, st) => st | None => fresh_state world0 end.
Lemma text_analysed s items n : text_tree s = (items, n) -> n <> 0%nat ->
  analysed 5 (fun _ => None) Z.of_nat [] (snd (sm_load_from_string [] (bs s))) items n.
Proof.
  unfold text_tree. intros E N.
  destruct (parse_sources 5 (fun _ => None) (snd (sm_load_from_string [] (bs s))) 0 [] []) as [[src m']|?|?] eqn:P;
    cbn [bind] in E; [|inversion E; congruence..].
  destruct (run_sema Z.of_nat (map CItem src)) as [[i0 n0]|?|?] eqn:R; [|inversion E; congruence..].
  inversion E; subst. now exists src, m'.
Qed.
Lemma run_analysed : analysed 5 (fun _ => None) Z.of_nat [] run_m run_items (snd (text_tree run_text)).
Proof. apply text_analysed; [apply surjective_pairing|vm_compute; discriminate]. Qed.
Example C82_ex :
  run_build = Ok (Some run_prog) /\ fits run_prog /\ bound run_prog run_prog /\
  unshared run_items /\
  run_init = Some (true, run_start) /\
  session run_items (entry run_items run_prog) (sys_index run_prog) (vm_sys run_prog) (next_call run_start) run_calls run_seen run_end /\
  exists v1, run_vm = Ok (SeenFlag true, v1) /\ init_done v1 /\
    Forall op_nonul (map (call_op run_prog) run_calls) /\
    exists v2, host_gc run_prog 500 (map (fun c => (cfg_always, call_op run_prog c)) run_calls) v1 = Ok (run_seen, v2).
Proof.
  split; [vm_compute; reflexivity|]. split; [apply fitsb_ok; vm_compute; reflexivity|]. split; [apply bound_self|].
  split; [apply unshared_b_ok; vm_compute; reflexivity|]. split; [vm_compute; reflexivity|].
  split; [apply (session_run_b_ok _ _ 100); vm_compute; reflexivity|].
  eexists. split; [vm_compute; reflexivity|]. split; [eexists [], _; split; reflexivity|].
  split. { repeat (apply Forall_cons; [vm_compute; repeat (apply Forall_cons; [discriminate|]); try apply Forall_nil; exact Logic.I|]). apply Forall_nil. }
  eexists. vm_compute. reflexivity.
Qed.

Print Assumptions C82_host_sees_source.
Print Assumptions C83_host_gets_answers.
