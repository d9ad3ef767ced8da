(** Random numbers and console input and output of the drivers: C113 and C114. *)
From Coq Require Import ZArith List Bool Lia ZifyBool.
From Verif Require Import Base BaseFacts F32 Instr InstrSpec InstrProofs Program VM Gc GcProofs GcSpec
  Host Demo VmSpec VmFacts RunFacts PropertiesOps PropertiesMem PropertiesRun PropertiesSched PropertiesBuiltins.
Import ListNotations.
Open Scope list_scope.
Open Scope Z_scope.

(** The machine after an instruction that also changes the world. *)
Definition with_world {P H} (s : mst P H) (w : world) : mst P H :=
  Mst (m_heap s) (m_glob s) w (m_pre s) (m_cur s) (m_post s).
(** Bytes up to the first one that [f] accepts. *)
Fixpoint until (f : Z -> bool) (l : bytes) : bytes :=
  match l with [] => [] | c :: r => if f c then [] else c :: until f r end.

(** * C113 Random numbers *)
(** The numbers are below 2^23; the state of the generator never becomes 0, and the
    states repeat from the first one on, never from a later one: every state has
    at most one predecessor. *)
Lemma u32_bit z k : 0 <= k < 32 -> Z.testbit (to_u32 z) k = Z.testbit z k.
Proof. intros H. unfold to_u32. change 4294967296 with (2 ^ 32). apply Z.mod_pow2_bits_low. lia. Qed.
Lemma high_bit z k : 0 <= z < 2 ^ 32 -> 32 <= k -> Z.testbit z k = false.
Proof.
  intros H K. destruct (Z.eq_dec z 0) as [->|N]; [apply Z.bits_0|]. apply Z.bits_above_log2; [lia|]. apply Z.log2_lt_pow2; [lia|].
  apply Z.lt_le_trans with (2 ^ 32); [lia|]. apply Z.pow_le_mono_r; lia.
Qed.
Lemma shl_inj n x y : 0 < n -> 0 <= x < 2 ^ 32 -> 0 <= y < 2 ^ 32 ->
  to_u32 (Z.lxor x (Z.shiftl x n)) = to_u32 (Z.lxor y (Z.shiftl y n)) -> x = y.
Proof.
  intros N X Y E. apply Z.bits_inj'. intros k K. revert k K. apply (well_founded_ind (Z.lt_wf 0) (fun k => 0 <= k -> Z.testbit x k = Z.testbit y k)).
  intros k IH K. destruct (Z_lt_le_dec k 32) as [Lo|Hi]; [|rewrite !high_bit by assumption; reflexivity].
  apply (f_equal (fun z => Z.testbit z k)) in E. rewrite !u32_bit, !Z.lxor_spec, !Z.shiftl_spec in E by lia.
  destruct (Z_lt_le_dec k n) as [A|A].
  - rewrite !(Z.testbit_neg_r _ (k - n)) in E by lia. rewrite !xorb_false_r in E. exact E.
  - rewrite (IH (k - n)) in E by lia. destruct (Z.testbit x k), (Z.testbit y k), (Z.testbit y (k - n)); try reflexivity; discriminate E.
Qed.
Lemma shr_inj n x y : 0 < n -> 0 <= x < 2 ^ 32 -> 0 <= y < 2 ^ 32 -> Z.lxor x (Z.shiftr x n) = Z.lxor y (Z.shiftr y n) -> x = y.
Proof.
  intros N X Y E. assert (G : forall m k, 0 <= k -> 32 - Z.of_nat m <= k -> Z.testbit x k = Z.testbit y k).
  { induction m as [|m IH]; intros k K M; [rewrite !high_bit by lia; reflexivity|].
    apply (f_equal (fun z => Z.testbit z k)) in E. rewrite !Z.lxor_spec, !Z.shiftr_spec in E by lia. rewrite (IH (k + n)) in E by lia.
    destruct (Z.testbit x k), (Z.testbit y k), (Z.testbit y (k + n)); try reflexivity; discriminate E. }
  apply Z.bits_inj'. intros k K. apply (G 32%nat); lia.
Qed.
Lemma u32_range z : 0 <= to_u32 z < 2 ^ 32.
Proof. apply Z.mod_pos_bound. reflexivity. Qed.
Lemma shr_range n x : 0 <= n -> 0 <= x < 2 ^ 32 -> 0 <= Z.lxor x (Z.shiftr x n) < 2 ^ 32.
Proof.
  intros N X. assert (S : 0 <= Z.shiftr x n < 2 ^ 32).
  { rewrite Z.shiftr_div_pow2 by lia. assert (0 < 2 ^ n) by (apply Z.pow_pos_nonneg; lia). split; [apply Z.div_pos; lia|].
    apply Z.le_lt_trans with x; [|lia]. apply Z.div_le_upper_bound; nia. }
  split; [apply Z.lxor_nonneg; lia|]. set (r := Z.lxor x (Z.shiftr x n)). destruct (Z_lt_le_dec r (2 ^ 32)) as [L|G]; [exact L|exfalso].
  assert (R : 0 < r) by lia. pose proof (Z.bit_log2 r R) as B. pose proof (proj1 (Z.log2_le_pow2 r 32 R) G) as K. unfold r in B at 1. rewrite Z.lxor_spec, !high_bit in B by assumption. discriminate B.
Qed.
Lemma xorshift_range x : 0 <= xorshift32 x < 2 ^ 32.
Proof. apply u32_range. Qed.
Theorem C113_one_predecessor x y : 0 <= x < 2 ^ 32 -> 0 <= y < 2 ^ 32 -> xorshift32 x = xorshift32 y -> x = y.
Proof.
  intros X Y E. unfold xorshift32 in E. cbv zeta in E. apply shl_inj in E; [|lia|apply shr_range; [lia|apply u32_range]..].
  apply shr_inj in E; [|lia|apply u32_range..]. apply shl_inj in E; [exact E|lia|assumption..].
Qed.
Fixpoint nth_state (n : nat) (x : Z) : Z := match n with O => x | S n => xorshift32 (nth_state n x) end.
Lemma state_range n x : 0 <= x < 2 ^ 32 -> 0 <= nth_state n x < 2 ^ 32.
Proof. destruct n; intros H; [exact H|apply xorshift_range]. Qed.
Theorem C113_never_zero n x : 0 < x < 2 ^ 32 -> 0 < nth_state n x.
Proof.
  intros X. induction n as [|n IH]; [apply X|]. cbn [nth_state]. pose proof (xorshift_range (nth_state n x)).
  assert (xorshift32 (nth_state n x) <> 0); [|lia]. intros E. change 0 with (xorshift32 0) in E.
  apply C113_one_predecessor in E; [lia|apply state_range; lia|lia].
Qed.
Theorem C113_repeats_from_the_start m n x : 0 <= x < 2 ^ 32 -> nth_state (m + n) x = nth_state m x -> nth_state n x = x.
Proof.
  intros X. induction m as [|m IH]; intros E; [exact E|]. apply IH. cbn [Nat.add nth_state] in E.
  apply C113_one_predecessor in E; [exact E|apply state_range; exact X..].
Qed.
(** What a program sees: rand pushes the low 23 bits of the next state. *)
Theorem C113_rand : forall P H (ops : hops P H) prog s n rest h q, sys_state prog s F_rand n rest ->
  let x := xorshift32 (w_rng (m_world s)) in
  h_newS ops (m_heap s) (SInt (x mod 8388608)) = Ok (h, q) ->
  step_imp ops prog s = Ok (tt, with_world (after s (pc s + 9) (q :: rest) h) (w_seed (m_world s) x)).
Proof.
  intros P H ops prog s n rest h q St x Nw. rewrite (sys_step _ _ _ _ _ _ _ _ St). destruct St as (Q & Es & _).
  assert (L : Z.land x 8388607 = x mod 8388608) by (change 8388607 with (Z.ones 23); rewrite Z.land_ones by lia; reflexivity).
  cbn [run_sys]. cbv zeta. unfold x in *. rewrite <- L in Nw. unfold with_world. dstate s. mcbv. subst. rw Nw. done1.
Qed.
Example C113_ex : map (fun n => Z.land (nth_state n 12345) 8388607) [1%nat; 2%nat; 3%nat] = [6648954; 2754991; 6328224].
Proof. vm_compute. reflexivity. Qed.

(** * C114 Console input and output *)
(** putc writes the low eight bits of an int; other values are refused. *)
Theorem C114_putc : forall z P H (ops : hops P H) prog s n p rest h q,
  sys_state prog s F_putc n (p :: rest) -> h_view ops (m_heap s) p = Ok (WS (SInt z)) ->
  h_newS ops (m_heap s) (SInt 0) = Ok (h, q) ->
  step_imp ops prog s = Ok (tt, with_world (after s (pc s + 9) (q :: rest) h) (w_put (m_world s) [z mod 256])).
Proof.
  intros z P H ops prog s n p rest h q St Ew Nw. rewrite (sys_step _ _ _ _ _ _ _ _ St). destruct St as (Q & Es & _).
  cbn [run_sys]. unfold with_world. dstate s. mcbv. subst. mcbv. rw Ew. rw Nw. done1.
Qed.
(** puts writes a string and a newline. *)
Theorem C114_puts : forall str P H (ops : hops P H) prog s n p rest h q,
  sys_state prog s F_puts n (p :: rest) -> h_view ops (m_heap s) p = Ok (WS (SStr str)) -> ~ In 0 str ->
  h_newS ops (m_heap s) (SInt 0) = Ok (h, q) ->
  step_imp ops prog s = Ok (tt, with_world (after s (pc s + 9) (q :: rest) h) (w_put (m_world s) (str ++ [10]))).
Proof.
  intros str P H ops prog s n p rest h q St Ew N0 Nw. rewrite (sys_step _ _ _ _ _ _ _ _ St). destruct St as (Q & Es & _).
  assert (C : cstr str = str).
  { clear - N0. induction str as [|c r IH]; [reflexivity|]. cbn [cstr]. destruct (c =? 0) eqn:E; [exfalso; apply N0; left; lia|]. f_equal. apply IH. intros I. apply N0. now right. }
  cbn [run_sys]. rewrite <- C. unfold with_world. dstate s. mcbv. subst. mcbv. rw Ew. rewrite C at 1. rw Nw. rewrite C. done1.
Qed.
(** getc takes one byte, or returns -1 at the end of the input. *)
Theorem C114_getc : forall P H (ops : hops P H) prog s n rest h q,
  sys_state prog s F_getc n rest ->
  h_newS ops (m_heap s) (SInt (match w_in (m_world s) with c :: _ => c | [] => -1 end)) = Ok (h, q) ->
  step_imp ops prog s = Ok (tt, with_world (after s (pc s + 9) (q :: rest) h) (w_take (m_world s) (tl (w_in (m_world s))))).
Proof.
  intros P H ops prog s n rest h q St Nw. rewrite (sys_step _ _ _ _ _ _ _ _ St). destruct St as (Q & Es & _).
  cbn [run_sys]. unfold with_world. dstate s. mcbv. subst. destruct w as [wo [|c wi] wr w1 w2 w3 w4 w5]; cbn [w_in w_take tl] in *; rw Nw; done1.
Qed.
(** gets takes a line of at most 79 bytes and returns it without its newline, up to
    the first NUL. *)
Lemma fgets_spec n : forall i s r, fgets n i = (s, r) ->
  i = s ++ r /\ cstr (strip_nl s) = until (fun c => (c =? 10) || (c =? 0)) (firstn n i) /\
  (length s <= n)%nat /\ (length s = n \/ r = [] \/ exists l, s = l ++ [10]) /\ ~ In 10 (removelast s).
Proof.
  induction n as [|n IH]; intros i s r E; [destruct i; inversion E; subst; cbn; repeat split; auto|].
  destruct i as [|c i]; [inversion E; subst; cbn; repeat split; auto; lia|]. cbn [fgets] in E. destruct (c =? 10) eqn:N.
  - inversion E; subst. assert (c = 10) by lia. subst c. cbn. repeat split; auto; try lia. right. right. exists []. reflexivity.
  - destruct (fgets n i) as [a b] eqn:F. inversion E; subst. destruct (IH i a r F) as (-> & C & L & T & R). cbn [strip_nl map firstn until cstr app length].
    rewrite N. cbn [orb]. split; [reflexivity|]. split; [|split; [lia|split]].
    + destruct (c =? 0); [reflexivity|]. f_equal. exact C.
    + destruct T as [T|[T|(l & ->)]]; [left; lia|auto|right; right; exists (c :: l); reflexivity].
    + destruct a as [|d a]; cbn [removelast]; [tauto|]. intros [I|I]; [lia|]. exact (R I).
Qed.
Theorem C114_gets : forall P H (ops : hops P H) prog s n rest h q,
  sys_state prog s F_gets n rest -> w_in (m_world s) <> [] ->
  h_newS ops (m_heap s) (SStr (until (fun c => (c =? 10) || (c =? 0)) (firstn 79 (w_in (m_world s))))) = Ok (h, q) ->
  exists line r, w_in (m_world s) = line ++ r /\
    (length line <= 79)%nat /\ ~ In 10 (removelast line) /\ (length line = 79%nat \/ r = [] \/ exists l, line = l ++ [10]) /\
    step_imp ops prog s = Ok (tt, with_world (after s (pc s + 9) (q :: rest) h) (w_take (m_world s) r)).
Proof.
  intros P H ops prog s n rest h q St Ni Nw. rewrite (sys_step _ _ _ _ _ _ _ _ St). destruct St as (Q & Es & _).
  destruct (fgets 79 (w_in (m_world s))) as [line r] eqn:F. destruct (fgets_spec _ _ _ _ F) as (A & B & C & D & E).
  exists line, r. split; [exact A|]. split; [exact C|]. split; [exact E|]. split; [exact D|]. rewrite <- B in Nw. clear A B C D E.
  cbn [run_sys]. unfold with_world. dstate s. mcbv. subst. rewrite F. destruct (w_in w) as [|c i]; [contradiction|]. cbv beta iota. rw Nw. done1.
Qed.
(** Finding: at the end of the input gets reads a buffer nothing was stored in. *)
Theorem C114_gets_at_the_end : forall P H (ops : hops P H) prog s n rest,
  sys_state prog s F_gets n rest -> w_in (m_world s) = [] -> step_imp ops prog s = Stuck SUninit.
Proof.
  intros P H ops prog s n rest St Ni. rewrite (sys_step _ _ _ _ _ _ _ _ St). cbn [run_sys]. dstate s. mcbv. rewrite Ni. reflexivity.
Qed.

(** The wrong kind of value ends the thread with an error and prints nothing; none
    trips an assertion. *)
Theorem C114_wrong_kind : forall f P H (ops : hops P H) prog s n p w rest h q, (f = F_putc \/ f = F_puts) ->
  sys_state prog s f n (p :: rest) -> h_view ops (m_heap s) p = Ok w -> plain w <> PNone ->
  (forall z, f = F_putc -> w <> WS (SInt z)) -> (forall t, f = F_puts -> w <> WS (SStr t)) ->
  h_newS ops (m_heap s) (SInt 0) = Ok (h, q) ->
  exists s', step_imp ops prog s = Ok (tt, s') /\ t_err (m_cur s') = Some e_bad_argument /\ t_fin (m_cur s') = true /\ m_world s' = m_world s.
Proof.
  intros f P H ops prog s n p w rest h q F St Ew N0 N1 N2 Nw. rewrite (sys_step _ _ _ _ _ _ _ _ St). destruct St as (Q & Es & _).
  destruct F as [->| ->]; cbn [run_sys]; dstate s; mcbv; subst; mcbv; rw Ew; destruct w as [|[]|]; try contradiction (N0 eq_refl);
    try (exfalso; eapply N1; reflexivity); try (exfalso; eapply N2; reflexivity); rw Nw; rewrite finish_quiet' by reflexivity; eexists; repeat split.
Qed.
Theorem C114_none : forall f P H (ops : hops P H) prog s n p rest, (f = F_putc \/ f = F_puts) ->
  sys_state prog s f n (p :: rest) -> h_view ops (m_heap s) p = Ok WNone -> step_imp ops prog s = Stuck SAssert.
Proof.
  intros f P H ops prog s n p rest F St Ew. rewrite (sys_step _ _ _ _ _ _ _ _ St). destruct St as (Q & Es & _).
  destruct F as [->| ->]; cbn [run_sys]; dstate s; mcbv; subst; mcbv; rw Ew; reflexivity.
Qed.

(** A program that reads a line, prints it and draws a random number. *)
Definition io_prog : program_t :=
  Prog [] [Sysc [103] (Some F_gets); Sysc [112] (Some F_puts); Sysc [114] (Some F_rand)] [demo_main]
    (asm [I2 INS_SCALL 0 0; I2 INS_SCALL 1 1; I2 INS_SCALL 0 2; I1 INS_NEW_INT 0]) [] [].
Definition io_state : mst ptr heap := with_world demo_state (World [] [104; 105; 10; 120] 12345 (fun x => x) (fun x => x) (fun x => x) [] (fun _ => Some HrNone)).
Ltac at_scall k nm := split; [reflexivity|]; split; [reflexivity|]; exists k, [nm]; split; [|reflexivity]; unfold at_ins;
  (split; [vm_compute; reflexivity|]; split; [vm_compute; discriminate|]; split; [repeat split; vm_compute; congruence|];
   eexists; split; vm_compute; reflexivity).
Example C114_ex :
  sys_state io_prog io_state F_gets 0 [] /\ w_in (m_world io_state) <> [] /\
  (exists h q, h_newS (gc_ops 5) (m_heap io_state) (SStr (until (fun c => (c =? 10) || (c =? 0)) (firstn 79 (w_in (m_world io_state))))) = Ok (h, q)) /\
  match resume (gc_ops 5) io_prog 1 io_state with
  | Ok (_, s) => exists p, sys_state io_prog s F_puts 1 [p] /\ gc_view (m_heap s) p = Ok (WS (SStr [104; 105])) /\ w_in (m_world s) = [120] /\
      exists h q, h_newS (gc_ops 5) (m_heap s) (SInt 0) = Ok (h, q)
  | _ => False end.
Proof.
  split; [at_scall 0 103|]. split; [discriminate|]. split; [do 2 eexists; reflexivity|].
  destruct (resume (gc_ops 5) io_prog 1 io_state) as [[b s]| |] eqn:E; vm_compute in E; try discriminate.
  match type of E with Ok (_, ?x) = Ok _ => assert (x = s) as <- by congruence end.
  eexists. split; [at_scall 1 112|]. split; [reflexivity|]. split; [reflexivity|]. do 2 eexists. reflexivity.
Qed.
Example C113_ex2 :
  match resume (gc_ops 5) io_prog 2 io_state with
  | Ok (_, s) => w_out (m_world s) = [104; 105; 10] /\ exists p, sys_state io_prog s F_rand 0 [p] /\
      exists h q, h_newS (gc_ops 5) (m_heap s) (SInt (xorshift32 (w_rng (m_world s)) mod 8388608)) = Ok (h, q)
  | _ => False end.
Proof.
  destruct (resume (gc_ops 5) io_prog 2 io_state) as [[b s]| |] eqn:E; vm_compute in E; try discriminate.
  match type of E with Ok (_, ?x) = Ok _ => assert (x = s) as <- by congruence end.
  split; [reflexivity|]. eexists. split; [at_scall 2 114|]. do 2 eexists. reflexivity.
Qed.

Print Assumptions C113_one_predecessor.
Print Assumptions C113_never_zero.
Print Assumptions C113_repeats_from_the_start.
Print Assumptions C113_rand.
Print Assumptions C114_putc.
Print Assumptions C114_puts.
Print Assumptions C114_getc.
Print Assumptions C114_gets.
Print Assumptions C114_gets_at_the_end.
Print Assumptions C114_wrong_kind.
Print Assumptions C114_none.
