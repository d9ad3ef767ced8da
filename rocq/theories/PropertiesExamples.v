(** Programs of the repository, for all arguments: C125.  The texts are those of the
    files, byte for byte; what the functions are to compute is said here without
    the language: Fibonacci numbers, factorials and the calendar. *)
From Coq Require Import ZArith List Bool Lia String ZifyBool.
From Verif Require Import PropertiesRun PropertiesSched.
From Verif Require Import Base BaseFacts F32 Instr Program ProgramProofs VM AbsHeap Gc GcSpec Refine Host HostProofs Demo VmSpec Source Lexer Ast Parser
  Sema SemaSpec Optimize Codegen Build BuildSpec SrcSem OptSpec OptFacts SemaIds CgSpec CgLink CgRun CgFlow CgWell ParseFine
  RunSpec OptRun HostRun PropertiesOpt PropertiesCodegen PropertiesBuild SafeSpec PropertiesSafe DriverMain DriverSpec PropertiesDriver.
Import ListNotations.
Open Scope list_scope.
Open Scope Z_scope.

(** examples/misc/fib.ccml *)
Definition fib_text : string := "function fib(count)
  var a = 0
  var b = 1
  while (count >= 2)
    var c = a + b
    a = b
    b = c
    count = count - 1
  end
  return b
end

# should return 34
function main()
  return fib(9)
end
"%string.
(** examples/misc/factoral.ccml *)
Definition fac_text : string := "function factoral(val)
    if (val <= 1)
        return 1
    else
        return val * factoral(val - 1)
    end
end

function main()
    return factoral(4)
end
"%string.
(** tests/xpass/day_of_the_week.ccml *)
Definition day_text : string := "#expect friday

var name = [""sunday"", ""monday"", ""tuesday"", ""wednesday"", ""thursday"", ""friday"", ""saturday""]

function wday(year, month, day)
 	var adjustment = (14 - month) / 12
	var mm = month + 12 * adjustment - 2
	var yy = year - adjustment
	return (day + (13 * mm - 1) / 5 + yy + yy / 4 - yy / 100 + yy / 400) % 7
end

function main()
  var index = wday(2019, 8, 2)
  puts(name[ index ])
end

"%string.

(** ** Specification *)
(** The program that the driver makes of a text, without and with the optimiser. *)
Definition compiled (on : bool) (text : string) : program_t :=
  match build 5 (file_named text) Z.of_nat on driver_regs (say_m text) with Ok (Some p) => p | _ => Prog [] [] [] [] [] [] end.
(** The text compiles.  On a new vm, whatever the collector settings, [call_init]
    succeeds without output, and a call of [f] with [vs] then gives [x], again without
    output.  The exceptions are those of C82. *)
Definition host_gets (text : string) (f : bytes) (vs : list (option scell)) (x : seen) : Prop :=
  forall on, build 5 (file_named text) Z.of_nat on driver_regs (say_m text) = Ok (Some (compiled on text)) /\
  let q := driver_resolve (compiled on text) in
  forall k w N c0 y v1, host_step q (cfg_ops c0) N HCallInit (vm_start k w) = Ok (y, v1) -> init_done v1 ->
  forall c, exists g, function_find q f = Some g /\
  (goes_deep q N (abs_start k w) [HCallInit; HCallOnce g vs] \/
   y = SeenFlag true /\ vm_world v1 = w /\
   (exhausted (host_gc q N [(c, HCallOnce g vs)] v1) \/
    exists v2, host_gc q N [(c, HCallOnce g vs)] v1 = Ok ([x], v2) /\ vm_world v2 = w)).

(** 0, 1, 1, 2, 3, 5, ... *)
Fixpoint fibonacci (n : nat) : Z :=
  match n with
  | O => 0
  | S m => match m with O => 1 | S k => fibonacci m + fibonacci k end
  end.

(** 1, 1, 2, 6, 24, ... *)
Fixpoint factorial (n : nat) : Z := match n with O => 1 | S m => Z.of_nat n * factorial m end.

(** The Gregorian calendar: years from 1, months from 1 to 12, days from 1.  The
    first day of year 1 is a monday; weekdays are numbered from sunday, 0. *)
Definition leap (y : Z) : bool := (y mod 4 =? 0) && (negb (y mod 100 =? 0) || (y mod 400 =? 0)).
Definition month_length (y m : Z) : Z :=
  if m =? 2 then (if leap y then 29 else 28)
  else if (m =? 4) || (m =? 6) || (m =? 9) || (m =? 11) then 30 else 31.
Definition date : Type := (Z * Z * Z)%type.
Definition a_date (t : date) : Prop :=
  let '(y, m, d) := t in 1 <= y /\ 1 <= m <= 12 /\ 1 <= d <= month_length y m.
Definition tomorrow (t : date) : date :=
  let '(y, m, d) := t in
  if d <? month_length y m then (y, m, d + 1) else if m <? 12 then (y, m + 1, 1) else (y + 1, 1, 1).
Inductive falls_on : date -> Z -> Prop :=
| falls_first : falls_on (1, 1, 1) 1
| falls_next : forall t k, falls_on t k -> falls_on (tomorrow t) ((k + 1) mod 7).

(** ** Integers in programs *)
Lemma i32_ok z : -2147483648 <= z <= 2147483647 -> chk32 z = Ok z.
Proof. intros R. unfold chk32, in_i32, i32_min, i32_max. destruct (_ && _) eqn:E; [reflexivity|lia]. Qed.
Lemma i32_bad z : z < -2147483648 \/ 2147483647 < z -> chk32 z = Stuck SOverflow.
Proof. intros R. unfold chk32, in_i32, i32_min, i32_max. destruct (_ && _) eqn:E; [lia|reflexivity]. Qed.
Lemma do_add a b st : -2147483648 <= a + b <= 2147483647 -> apply2 BAdd (AS (SInt a)) (AS (SInt b)) st = Done (AS (SInt (a + b)), st).
Proof. intros R. cbn. now rewrite i32_ok. Qed.
Lemma do_sub a b st : -2147483648 <= a - b <= 2147483647 -> apply2 BSub (AS (SInt a)) (AS (SInt b)) st = Done (AS (SInt (a - b)), st).
Proof. intros R. cbn. now rewrite i32_ok. Qed.
Lemma do_mul a b st : -2147483648 <= a * b <= 2147483647 -> apply2 BMul (AS (SInt a)) (AS (SInt b)) st = Done (AS (SInt (a * b)), st).
Proof. intros R. cbn. now rewrite i32_ok. Qed.
Lemma quot_ok a b : 0 <= a <= 2147483647 -> 0 < b -> chk32 (a / b) = Ok (a / b).
Proof. intros A B. apply i32_ok. pose proof (Z.div_pos a b). pose proof (Z.div_le_upper_bound a b a). nia. Qed.
Lemma do_div a b st : 0 <= a <= 2147483647 -> 0 < b -> apply2 BDiv (AS (SInt a)) (AS (SInt b)) st = Done (AS (SInt (a / b)), st).
Proof.
  intros A B. unfold apply2. cbn [look abs_view obind plain binary]. unfold op_div. destruct (Z.eqb_spec b 0); [lia|]. rewrite Z.quot_div_nonneg by lia.
  now rewrite quot_ok.
Qed.
Lemma do_mod a b st : 0 <= a <= 2147483647 -> 0 < b -> apply2 BMod (AS (SInt a)) (AS (SInt b)) st = Done (AS (SInt (a mod b)), st).
Proof.
  intros A B. unfold apply2. cbn [look abs_view obind plain binary]. unfold op_mod. destruct (Z.eqb_spec b 0); [lia|]. rewrite Z.quot_div_nonneg, Z.rem_mod_nonneg by lia.
  now rewrite quot_ok.
Qed.
Lemma do_leq a b st : apply2 BLeq (AS (SInt a)) (AS (SInt b)) st = Done (AS (SInt (b2z (a <=? b))), st).
Proof. reflexivity. Qed.
Lemma do_geq a b st : apply2 BGeq (AS (SInt a)) (AS (SInt b)) st = Done (AS (SInt (b2z (b <=? a))), st).
Proof. reflexivity. Qed.
Lemma do_truth b st : truth (AS (SInt (b2z b))) st = Done b.
Proof. now destruct b. Qed.

(** ** From the source to the host *)
Section Lift.
  Variable text : string.
  Variable items : list ritem.
  Variable n : nat.
  Hypothesis T : say_tree text = (items, n).
  Hypothesis N0 : n <> 0%nat.
  Hypothesis U : unshared items.
  Hypothesis B : forall on, build 5 (file_named text) Z.of_nat on driver_regs (say_m text) = Ok (Some (compiled on text)).
  Hypothesis F : forall on, fits (compiled on text).
  Variable start : world -> sst.
  Hypothesis W : forall w, s_world (start w) = w.
  Hypothesis R : forall on w, let q := driver_resolve (compiled on text) in
    initial items (entry items q) (sys_index q) (vm_sys q) 20 (fresh_state w) = Done (start w).
  Lemma lift f x vs c j : named items f = Some x ->
    Forall (fun v => forall s, v = Some (SStr s) -> ~ In 0 s) vs ->
    (forall on, exists g, function_find (driver_resolve (compiled on text)) f = Some g) ->
    (forall on st, let q := driver_resolve (compiled on text) in
      run_call items (entry items q) (sys_index q) (vm_sys q) j x (map passed vs) st = Done (AS c, st)) ->
    host_gets text f vs (SeenCall true (ShScalar c) None).
  Proof.
    intros Nx Nn Gx Rc on. split; [apply B|]. intros q k w N c0 y v1 H D c1. destruct (Gx on) as [g G]. exists g. split; [exact G|].
    pose proof (say_analysed text) as A. rewrite T in A. specialize (A N0). cbn [fst snd] in A.
    pose proof (R on w) as R1. pose proof (Rc on (next_call (start w))) as Rc1. cbv zeta in R1, Rc1. fold q in R1, Rc1.
    assert (S : session items (entry items q) (sys_index q) (vm_sys q) (next_call (start w)) [(f, vs)] [SeenCall true (shown_value (next_call (start w)) (AS c)) None] (next_call (next_call (start w)))).
    { eapply session_value; [exact Nx|exact Rc1|constructor]. }
    assert (I : init_result (initial items (entry items q) (sys_index q) (vm_sys q) 20 (fresh_state w)) = Some (true, start w)) by (rewrite R1; reflexivity).
    destruct (C82_host_sees_source 5 (file_named text) Z.of_nat on driver_regs (say_m text) (compiled on text) q items n (B on) (F on) (driver_bound _) A (fun _ => U)
      20 w true (start w) I _ _ _ S k N c0 y v1 H D [(c1, HCallOnce g vs)]) as [De|(E1 & E2 & E3)].
    - cbn. unfold call_op. cbn [fst snd]. fold q in G. now rewrite G.
    - cbn. constructor; [exact Nn|constructor].
    - left. cbn in De. unfold call_op in De. cbn [fst snd] in De. fold q in G. now rewrite G in De.
    - right. rewrite W in E2. split; [exact E1|]. split; [exact E2|]. destruct E3 as [E3|(v2 & E3 & E4)]; [left; exact E3|right].
      exists v2. split; [exact E3|]. rewrite E4. cbn. apply W.
  Qed.
End Lift.

(** ** The sources *)
Definition the_fun (items : list ritem) (f : bytes) : fdecl * list vdecl * list rstmt :=
  match named items f with Some x => x | None => (FDecl 0 [] None false false 0, [], []) end.
Definition fib_items : list ritem := Eval vm_compute in fst (say_tree fib_text).
Definition fib_fun := Eval vm_compute in the_fun fib_items (bs "fib").
Definition fac_items : list ritem := Eval vm_compute in fst (say_tree fac_text).
Definition fac_fun := Eval vm_compute in the_fun fac_items (bs "factoral").
Definition day_items : list ritem := Eval vm_compute in fst (say_tree day_text).
Definition day_fun := Eval vm_compute in the_fun day_items (bs "wday").

Ltac sym := cbn -[apply2 truth fibonacci Z.add Z.sub Z.mul Z.div Z.modulo Z.leb b2z factorial Z.of_nat run_stmt run_call].
Ltac sym1 := cbn -[apply2 truth fibonacci Z.add Z.sub Z.mul Z.div Z.modulo Z.leb b2z factorial Z.of_nat].

(** ** Fibonacci *)
Fixpoint fib_pair (n : nat) : Z * Z := match n with O => (0, 1) | S m => let '(a, b) := fib_pair m in (b, a + b) end.
Lemma fib_step k : fibonacci (S (S k)) = fibonacci k + fibonacci (S k).
Proof. change (fibonacci (S (S k))) with (fibonacci (S k) + fibonacci k). lia. Qed.
Lemma fib_pair_ok n : fib_pair n = (fibonacci n, fibonacci (S n)).
Proof. induction n as [|n IH]; [reflexivity|]. cbn [fib_pair]. rewrite IH. now rewrite <- fib_step. Qed.
Lemma fib_pos n : 0 <= fibonacci n /\ 0 <= fibonacci (S n).
Proof. induction n as [|n [A B]]; [split; discriminate|]. split; [exact B|]. rewrite fib_step. lia. Qed.
Lemma fib_mono n m : (n <= m)%nat -> fibonacci n <= fibonacci m.
Proof.
  intros L. induction L as [|m L IH]; [lia|]. destruct m as [|m].
  - assert (n = 0%nat) as -> by lia. discriminate.
  - rewrite fib_step. pose proof (fib_pos m). lia.
Qed.
Lemma fib_fst n z : fst (fib_pair n) = z -> fibonacci n = z.
Proof. rewrite fib_pair_ok. intros E. exact E. Qed.
Lemma fib_46 : fibonacci 46 = 1836311903.
Proof. apply fib_fst. vm_compute. reflexivity. Qed.
Lemma fib_47 : fibonacci 47 = 2971215073.
Proof. apply fib_fst. vm_compute. reflexivity. Qed.
Lemma fib_fits n : (n <= 46)%nat -> 0 <= fibonacci n <= 2147483647.
Proof. intros L. pose proof (fib_mono _ _ L) as M. rewrite fib_46 in M. pose proof (fib_pos n). lia. Qed.

Definition fib_loop : rstmt := Eval vm_compute in nth 2 (snd fib_fun) (RReturn (Line 0 0) None).
Definition fib_end : rstmt := Eval vm_compute in nth 3 (snd fib_fun) (RReturn (Line 0 0) None).
Definition fib_cond : rexpr := Eval vm_compute in match fib_loop with RWhile _ e _ => e | _ => RNone (Line 0 0) end.
Definition fib_body : list rstmt := Eval vm_compute in match fib_loop with RWhile _ _ (Some e) => e | _ => [] end.
Definition fib_env (c a b : Z) : env := Env [(24%nat, AS (SInt c))] [(28%nat, Some (AS (SInt b))); (26%nat, Some (AS (SInt a)))].
Section Fib.
  Variable items : list ritem.
  Variable fa : nat -> Z.
  Variable si : bytes -> Z.
  Variable sy : Z -> list aval -> sst -> outcome (aval * sst).
  Lemma while_eq m r l c b st : run_stmt items fa si sy (S m) r (RWhile l c b) st =
      let* (v, st1) := run_expr items fa si sy m r c st in
      let* go := truth v st1 in
      if go then
        let* (o, r1, st2) := run_block items fa si sy m r b st1 in
        match o with Some v => Done (Some v, r1, st2) | None => run_stmt items fa si sy m r1 (RWhile l c b) st2 end
      else Done (None, r, st1).
  Proof. reflexivity. Qed.
  Lemma fib_test n c a b st : run_expr items fa si sy (5 + n) (fib_env c a b) fib_cond st = Done (AS (SInt (b2z (2 <=? c))), st).
  Proof. reflexivity. Qed.
  Lemma fib_once n c a b st : 2 <= c <= 2147483647 -> -2147483648 <= a + b <= 2147483647 ->
    run_block items fa si sy (9 + n) (fib_env c a b) (Some fib_body) st = Done (None, fib_env (c - 1) b (a + b), st).
  Proof.
    intros C A. sym1. rewrite do_add by lia. sym1. rewrite do_sub by lia. sym1. reflexivity.
  Qed.
  Lemma fib_round n c a b st : 2 <= c <= 2147483647 -> -2147483648 <= a + b <= 2147483647 ->
    run_stmt items fa si sy (12 + n) (fib_env c a b) fib_loop st = run_stmt items fa si sy (11 + n) (fib_env (c - 1) b (a + b)) fib_loop st.
  Proof.
    intros C A. change fib_loop with (RWhile (Line 0 4) fib_cond (Some fib_body)) at 1. change (12 + n)%nat with (S (11 + n)). rewrite while_eq.
    change (11 + n)%nat with (5 + (6 + n))%nat at 1. rewrite fib_test. cbn [obind]. rewrite do_truth. cbn [obind].
    destruct (Z.leb_spec 2 c); [|lia]. change (11 + n)%nat with (9 + (2 + n))%nat at 1. rewrite fib_once by lia. reflexivity.
  Qed.
  Lemma fib_stop n c a b st : c < 2 -> run_stmt items fa si sy (12 + n) (fib_env c a b) fib_loop st = Done (None, fib_env c a b, st).
  Proof.
    intros C. change fib_loop with (RWhile (Line 0 4) fib_cond (Some fib_body)). change (12 + n)%nat with (S (5 + (6 + n))). rewrite while_eq, fib_test.
    cbn [obind]. rewrite do_truth. destruct (Z.leb_spec 2 c); [lia|]. reflexivity.
  Qed.
  Lemma fib_rounds : forall t n k c st, (c = Z.of_nat t + 1 \/ t = 0%nat /\ c < 2) -> (k + t <= 45)%nat ->
    exists c', run_stmt items fa si sy (12 + t + n) (fib_env c (fibonacci k) (fibonacci (S k))) fib_loop st =
      Done (None, fib_env c' (fibonacci (k + t)) (fibonacci (S (k + t))), st).
  Proof.
    induction t as [|t IH]; intros n k c st C K.
    - exists c. rewrite !Nat.add_0_r. apply fib_stop. lia.
    - replace (12 + S t + n)%nat with (12 + (S t + n))%nat by lia. pose proof (fib_fits (S (S k)) ltac:(lia)) as B. rewrite fib_step in B.
      rewrite fib_round by lia. rewrite <- fib_step.
      destruct (IH n (S k) (c - 1) st) as [c' E]; [lia|lia|]. exists c'. replace (k + S t)%nat with (S k + t)%nat by lia.
      rewrite <- E. f_equal.
  Qed.
  Lemma fib_far : forall t n k c st, Z.of_nat t + 2 <= c <= 2147483647 -> (k + t <= 45)%nat ->
    run_stmt items fa si sy (12 + t + n) (fib_env c (fibonacci k) (fibonacci (S k))) fib_loop st =
    run_stmt items fa si sy (12 + n) (fib_env (c - Z.of_nat t) (fibonacci (k + t)) (fibonacci (S (k + t)))) fib_loop st.
  Proof.
    induction t as [|t IH]; intros n k c st C K.
    - rewrite !Nat.add_0_r. now rewrite Z.sub_0_r.
    - replace (12 + S t + n)%nat with (12 + (S t + n))%nat by lia. pose proof (fib_fits (S (S k)) ltac:(lia)) as B. rewrite fib_step in B.
      rewrite fib_round by lia. rewrite <- fib_step. change (11 + (S t + n))%nat with (12 + t + n)%nat. rewrite IH by lia.
      replace (k + S t)%nat with (S k + t)%nat by lia. now replace (c - 1 - Z.of_nat t) with (c - Z.of_nat (S t)) by lia.
  Qed.
  Lemma fib_crash n c a b st : 2 <= c -> 2147483647 < a + b -> run_stmt items fa si sy (12 + n) (fib_env c a b) fib_loop st = Undefined.
  Proof.
    intros C A. change fib_loop with (RWhile (Line 0 4) fib_cond (Some fib_body)). change (12 + n)%nat with (S (5 + (6 + n))). rewrite while_eq, fib_test.
    cbn [obind]. rewrite do_truth. destruct (Z.leb_spec 2 c); [|lia]. cbn [obind]. change (5 + (6 + n))%nat with (9 + (2 + n))%nat.
    assert (E : run_block items fa si sy (9 + (2 + n)) (fib_env c a b) (Some fib_body) st = Undefined); [|now rewrite E].
    sym1. assert (X : apply2 BAdd (AS (SInt a)) (AS (SInt b)) st = Undefined) by (cbn; now rewrite i32_bad by lia). now rewrite X.
  Qed.
  Lemma fib_head m n st : run_call items fa si sy (7 + m) fib_fun [AS (SInt n)] st =
      let* (o, _, st1) := (let* (o, r1, st1) := run_stmt items fa si sy (3 + m) (fib_env n 0 1) fib_loop st in
        match o with Some v => Done (Some v, r1, st1) | None => run_stmts items fa si sy (3 + m) r1 [fib_end] st1 end) in
      match o with Some v => Done (v, st1) | None => Done (AS (SInt 0), st1) end.
  Proof. reflexivity. Qed.
  Lemma fib_too_far n st : 47 <= n <= 2147483647 -> run_call items fa si sy 100 fib_fun [AS (SInt n)] st = Undefined.
  Proof.
    intros L. change 100%nat with (7 + 93)%nat. rewrite fib_head. change (3 + 93)%nat with (12 + 45 + 39)%nat at 1.
    change (fib_env n 0 1) with (fib_env n (fibonacci 0) (fibonacci 1)). rewrite fib_far by lia. rewrite fib_crash; [reflexivity|lia|].
    rewrite <- fib_step. change (S (S (0 + 45))) with 47%nat. rewrite fib_47. lia.
  Qed.
  Lemma fib_call n st : n <= 46 -> run_call items fa si sy (20 + Z.to_nat n) fib_fun [AS (SInt n)] st = Done (AS (SInt (fibonacci (Z.to_nat (Z.max 1 n)))), st).
  Proof.
    intros L. set (t := Z.to_nat (n - 1)).
    destruct (fib_rounds t (Z.to_nat n - t + 4) 0 n st) as [c' E]; [lia|lia|].
    replace (20 + Z.to_nat n)%nat with (S (S (S (S (12 + t + (Z.to_nat n - t + 4)))))) by lia.
    remember (12 + t + (Z.to_nat n - t + 4))%nat as m eqn:M.
    change (fib_env n (fibonacci 0) (fibonacci 1)) with (fib_env n 0 1) in E.
    destruct m as [|[|[|m]]]; [lia..|].
    assert (H : run_call items fa si sy (S (S (S (S (S (S (S m))))))) fib_fun [AS (SInt n)] st =
      let* (o, _, st1) := (let* (o, r1, st1) := run_stmt items fa si sy (S (S (S m))) (fib_env n 0 1) fib_loop st in
        match o with Some v => Done (Some v, r1, st1) | None => run_stmts items fa si sy (S (S (S m))) r1 [fib_end] st1 end) in
      match o with Some v => Done (v, st1) | None => Done (AS (SInt 0), st1) end) by reflexivity.
    rewrite H, E. cbn [obind]. replace (Z.to_nat (Z.max 1 n)) with (S (0 + t)) by lia. cbn -[fibonacci Nat.add]. reflexivity.
  Qed.
End Fib.

(** ** Factorials *)
Definition fac_env (n : Z) : env := Env [(24%nat, AS (SInt n))] [].
Definition fac_cond : rexpr := Eval vm_compute in match snd fac_fun with [RIf _ c _ _] => c | _ => RNone (Line 0 0) end.
Definition fac_then : list rstmt := Eval vm_compute in match snd fac_fun with [RIf _ _ (Some b) _] => b | _ => [] end.
Definition fac_self : rexpr := Eval vm_compute in match snd fac_fun with [RIf _ _ _ (Some [RReturn _ (Some (RBin _ _ x _))])] => x | _ => RNone (Line 0 0) end.
Definition fac_name : rexpr := Eval vm_compute in match snd fac_fun with [RIf _ _ _ (Some [RReturn _ (Some (RBin _ _ _ (RCall _ x _)))])] => x | _ => RNone (Line 0 0) end.
Definition fac_less : list rexpr := Eval vm_compute in match snd fac_fun with [RIf _ _ _ (Some [RReturn _ (Some (RBin _ _ _ (RCall _ _ x)))])] => x | _ => [] end.
Section Fac.
  Variable fa : nat -> Z.
  Variable si : bytes -> Z.
  Variable sy : Z -> list aval -> sst -> outcome (aval * sst).
  Notation RC := (run_call fac_items fa si sy).
  Notation RE := (run_expr fac_items fa si sy).
  Lemma fac_head m v st : RC (5 + m)%nat fac_fun [AS (SInt v)] st =
    let* (c, st1) := RE (2 + m)%nat (fac_env v) fac_cond st in
    let* b := truth c st1 in
    let* (o, _, st2) := run_block fac_items fa si sy (2 + m) (fac_env v) (if b then Some fac_then
      else Some [RReturn (Line 0 5) (Some (RBin BMul (Line 0 5) fac_self (RCall (Line 0 5) fac_name fac_less)))]) st1 in
    match o with Some x => Done (x, st2) | None => Done (AS (SInt 0), st2) end.
  Proof.
    change (RC (5 + m)%nat fac_fun [AS (SInt v)] st) with
     (let* (o, _, st1) := (let* (o, r1, st1) := run_stmt fac_items fa si sy (3 + m) (fac_env v) (RIf (Line 0 2) fac_cond (Some fac_then)
        (Some [RReturn (Line 0 5) (Some (RBin BMul (Line 0 5) fac_self (RCall (Line 0 5) fac_name fac_less)))])) st in
        match o with Some v => Done (Some v, r1, st1) | None => run_stmts fac_items fa si sy (3 + m) r1 [] st1 end) in
      match o with Some v => Done (v, st1) | None => Done (AS (SInt 0), st1) end).
    change (run_stmt fac_items fa si sy (3 + m) (fac_env v) (RIf (Line 0 2) fac_cond (Some fac_then)
        (Some [RReturn (Line 0 5) (Some (RBin BMul (Line 0 5) fac_self (RCall (Line 0 5) fac_name fac_less)))])) st)
      with (let* (c, st1) := RE (2 + m)%nat (fac_env v) fac_cond st in
            let* b := truth c st1 in
            run_block fac_items fa si sy (2 + m) (fac_env v) (if b then Some fac_then
              else Some [RReturn (Line 0 5) (Some (RBin BMul (Line 0 5) fac_self (RCall (Line 0 5) fac_name fac_less)))]) st1).
    destruct (RE (2 + m)%nat (fac_env v) fac_cond st) as [[c st1]| | |]; cbn [obind]; try reflexivity.
    destruct (truth c st1) as [b| | |]; cbn [obind]; try reflexivity.
    destruct (run_block fac_items fa si sy (2 + m) (fac_env v) _ st1) as [[[[x|] r1] st2]| | |]; reflexivity.
  Qed.
  Lemma fac_test m v st : RE (5 + m)%nat (fac_env v) fac_cond st = Done (AS (SInt (b2z (v <=? 1))), st).
  Proof. reflexivity. Qed.
  Lemma fac_base n v st : v <= 1 -> RC (12 + n)%nat fac_fun [AS (SInt v)] st = Done (AS (SInt 1), st).
  Proof.
    intros L. change (12 + n)%nat with (5 + (7 + n))%nat. rewrite fac_head. change (2 + (7 + n))%nat with (5 + (4 + n))%nat. rewrite fac_test. cbn [obind].
    rewrite do_truth. cbn [obind]. destruct (Z.leb_spec v 1); [|lia]. reflexivity.
  Qed.
  Lemma fac_else m v st : run_block fac_items fa si sy (6 + m) (fac_env v) (Some [RReturn (Line 0 5) (Some (RBin BMul (Line 0 5) fac_self (RCall (Line 0 5) fac_name fac_less)))]) st =
    let* (x, st1) := (let* (x, st1) := RE (2 + m)%nat (fac_env v) (RCall (Line 0 5) fac_name fac_less) st in apply2 BMul (AS (SInt v)) x st1) in
    Done (Some x, fac_env v, st1).
  Proof.
    change (run_block fac_items fa si sy (6 + m) (fac_env v) (Some [RReturn (Line 0 5) (Some (RBin BMul (Line 0 5) fac_self (RCall (Line 0 5) fac_name fac_less)))]) st)
      with (let* (o, r1, st1) := (let* (o, r1, st1) := (let* (x, st1) := (let* (x, st1) := RE (2 + m)%nat (fac_env v) (RCall (Line 0 5) fac_name fac_less) st in apply2 BMul (AS (SInt v)) x st1)
         in Done (Some x, fac_env v, st1)) in match o with Some v => Done (Some v, r1, st1) | None => run_stmts fac_items fa si sy (4 + m) r1 [] st1 end) in Done (o, leave_block (fac_env v) r1, st1)).
    destruct (RE (2 + m)%nat (fac_env v) _ st) as [[c st1]| | |]; cbn [obind]; try reflexivity.
    destruct (apply2 BMul (AS (SInt v)) c st1) as [[x st2]| | |]; reflexivity.
  Qed.
  Lemma fac_args m v st : -2147483647 <= v <= 2147483647 -> run_exprs fac_items fa si sy (7 + m) (fac_env v) fac_less st = Done ([AS (SInt (v - 1))], st).
  Proof. intros L. sym1. rewrite do_sub by lia. reflexivity. Qed.
  Lemma fac_again m v st : -2147483647 <= v <= 2147483647 -> RE (8 + m)%nat (fac_env v) (RCall (Line 0 5) fac_name fac_less) st = RC (7 + m)%nat fac_fun [AS (SInt (v - 1))] st.
  Proof.
    intros L. change (RE (8 + m)%nat (fac_env v) (RCall (Line 0 5) fac_name fac_less) st) with
      (let* (vs, st1) := run_exprs fac_items fa si sy (7 + m) (fac_env v) fac_less st in RC (7 + m)%nat fac_fun vs st1).
    now rewrite fac_args.
  Qed.
  Lemma fac_more m v st : 2 <= v <= 2147483647 -> RC (15 + m)%nat fac_fun [AS (SInt v)] st =
    let* (x, st1) := RC (7 + m)%nat fac_fun [AS (SInt (v - 1))] st in apply2 BMul (AS (SInt v)) x st1.
  Proof.
    intros L. change (15 + m)%nat with (5 + (10 + m))%nat. rewrite fac_head. change (2 + (10 + m))%nat with (5 + (7 + m))%nat at 1. rewrite fac_test. cbn [obind].
    rewrite do_truth. cbn [obind]. destruct (Z.leb_spec v 1); [lia|]. change (2 + (10 + m))%nat with (6 + (6 + m))%nat. rewrite fac_else.
    change (2 + (6 + m))%nat with (8 + m)%nat. rewrite fac_again by lia.
    destruct (RC (7 + m)%nat _ _ st) as [[c st1]| | |]; cbn [obind]; try reflexivity.
    destruct (apply2 BMul (AS (SInt v)) c st1) as [[x st2]| | |]; reflexivity.
  Qed.
  Lemma factorial_S n : factorial (S n) = Z.of_nat (S n) * factorial n.
  Proof. reflexivity. Qed.
  Lemma factorial_pos n : 1 <= factorial n.
  Proof. induction n as [|n IH]; [discriminate|]. rewrite factorial_S. nia. Qed.
  Lemma factorial_mono n m : (n <= m)%nat -> factorial n <= factorial m.
  Proof. intros L. induction L as [|m L IH]; [lia|]. rewrite factorial_S. pose proof (factorial_pos m). nia. Qed.
  Lemma factorial_fits n : (n <= 12)%nat -> 1 <= factorial n <= 479001600.
  Proof. intros L. pose proof (factorial_mono _ _ L) as M. change (factorial 12) with 479001600 in M. pose proof (factorial_pos n). lia. Qed.
  Lemma fac_up : forall t m st, (t <= 11)%nat -> RC (15 + 8 * t + m)%nat fac_fun [AS (SInt (Z.of_nat (S t)))] st = Done (AS (SInt (factorial (S t))), st).
  Proof.
    induction t as [|t IH]; intros m st L.
    - change (15 + 8 * 0 + m)%nat with (12 + (3 + m))%nat. now rewrite fac_base.
    - replace (15 + 8 * S t + m)%nat with (15 + (8 + 8 * t + m))%nat by lia. rewrite fac_more by lia.
      replace (Z.of_nat (S (S t)) - 1) with (Z.of_nat (S t)) by lia. replace (7 + (8 + 8 * t + m))%nat with (15 + 8 * t + m)%nat by lia.
      rewrite IH by lia. cbn [obind]. pose proof (factorial_fits (S (S t)) ltac:(lia)) as B. rewrite factorial_S in B. now rewrite do_mul by lia.
  Qed.
  Lemma fac_call v st : v <= 12 -> RC 120%nat fac_fun [AS (SInt v)] st = Done (AS (SInt (factorial (Z.to_nat v))), st).
  Proof.
    intros L. destruct (Z.leb_spec v 1) as [Le|Gt].
    - change 120%nat with (12 + 108)%nat. rewrite fac_base by exact Le. assert (Z.to_nat v = 0%nat \/ Z.to_nat v = 1%nat) as [->| ->] by lia; reflexivity.
    - pose proof (fac_up (Z.to_nat v - 1) (105 - 8 * (Z.to_nat v - 1)) st ltac:(lia)) as E.
      replace (15 + 8 * (Z.to_nat v - 1) + (105 - 8 * (Z.to_nat v - 1)))%nat with 120%nat in E by lia.
      replace (S (Z.to_nat v - 1)) with (Z.to_nat v) in E by lia. rewrite Z2Nat.id in E by lia. exact E.
  Qed.
End Fac.

(** ** The calendar *)
Definition weekday (t : date) : Z :=
  let '(y, m, d) := t in
  let a := (14 - m) / 12 in let mm := m + 12 * a - 2 in let yy := y - a in
  (d + (13 * mm - 1) / 5 + yy + yy / 4 - yy / 100 + yy / 400) mod 7.
Lemma leap_quot y c : 0 < c -> y / c = (y - 1) / c + (if y mod c =? 0 then 1 else 0).
Proof.
  intros C. pose proof (Z.div_mod y c ltac:(lia)) as E. pose proof (Z.mod_pos_bound y c C) as B.
  destruct (Z.eqb_spec (y mod c) 0) as [Z0|NZ].
  - replace (y - 1) with ((c - 1) + (y / c - 1) * c) by lia. rewrite Z.div_add by lia. rewrite (Z.div_small (c - 1)) by lia. lia.
  - replace (y - 1) with ((y mod c - 1) + (y / c) * c) by lia. rewrite Z.div_add by lia. rewrite (Z.div_small (y mod c - 1)) by lia. lia.
Qed.
Lemma leap_days y : (if leap y then 1 else 0) = (if y mod 4 =? 0 then 1 else 0) - (if y mod 100 =? 0 then 1 else 0) + (if y mod 400 =? 0 then 1 else 0).
Proof.
  unfold leap. pose proof (Z.mod_divide y 4 ltac:(lia)) as A. 
  assert (H1 : y mod 400 = 0 -> y mod 100 = 0). { intros H. apply Z.mod_divide in H; [|lia]. apply Z.mod_divide; [lia|]. destruct H as [q ->]. exists (q * 4). lia. }
  assert (H2 : y mod 100 = 0 -> y mod 4 = 0). { intros H. apply Z.mod_divide in H; [|lia]. apply Z.mod_divide; [lia|]. destruct H as [q ->]. exists (q * 25). lia. }
  destruct (Z.eqb_spec (y mod 4) 0), (Z.eqb_spec (y mod 100) 0), (Z.eqb_spec (y mod 400) 0); cbn; try reflexivity; exfalso; auto.
Qed.
Lemma next_mod j a b : a = b + 1 + j * 7 -> a mod 7 = (b mod 7 + 1) mod 7.
Proof. intros ->. rewrite Z.mod_add by lia. now rewrite Zplus_mod_idemp_l. Qed.
Lemma weekday_next t : a_date t -> a_date (tomorrow t) /\ weekday (tomorrow t) = (weekday t + 1) mod 7.
Proof.
  destruct t as [[y m] d]. intros (Y & M & D). unfold tomorrow. destruct (Z.ltb_spec d (month_length y m)) as [L|L].
  - split; [repeat split; lia|]. apply (next_mod 0). lia.
  - assert (d = month_length y m) as -> by lia. clear D L. destruct (Z.ltb_spec m 12) as [L|L].
    + split. { repeat split; try lia. unfold month_length. destruct (leap y); repeat match goal with |- context [if ?b then _ else _] => destruct b end; lia. }
      assert (m = 1 \/ m = 2 \/ m = 3 \/ m = 4 \/ m = 5 \/ m = 6 \/ m = 7 \/ m = 8 \/ m = 9 \/ m = 10 \/ m = 11) as C by lia.
      pose proof (leap_quot y 4 ltac:(lia)) as Q1. pose proof (leap_quot y 100 ltac:(lia)) as Q2. pose proof (leap_quot y 400 ltac:(lia)) as Q3.
      pose proof (leap_days y) as LD.
      repeat (destruct C as [->|C]); try subst m; unfold weekday;
        repeat match goal with |- context [(14 - ?k) / 12] => let v := eval vm_compute in ((14 - k) / 12) in change ((14 - k) / 12) with v end;
        cbv zeta; 
        repeat match goal with |- context [(13 * ?k - 1) / 5] => let v := eval vm_compute in ((13 * k - 1) / 5) in change ((13 * k - 1) / 5) with v end;
        try (change (month_length y 2) with (if leap y then 29 else 28)); rewrite ?Z.sub_0_r; cbn [month_length Z.eqb Pos.eqb orb];
        first [apply (next_mod (-4)); lia|apply (next_mod (-8)); destruct (leap y); lia].
    + assert (m = 12) as -> by lia. split; [split; [lia|split; [lia|]]; cbn; lia|]. unfold weekday. apply (next_mod (-4)).
      change ((14 - 1) / 12) with 1. change ((14 - 12) / 12) with 0. cbv zeta. rewrite Z.sub_0_r. replace (y + 1 - 1) with y by lia.
      change ((13 * (1 + 12 * 1 - 2) - 1) / 5) with 28. change ((13 * (12 + 12 * 0 - 2) - 1) / 5) with 25. change (month_length y 12) with 31. lia.
Qed.
Lemma falls_weekday t k : falls_on t k -> a_date t /\ k = weekday t.
Proof.
  intros F. induction F as [|t k F [A ->]]; [split; [repeat split; discriminate|reflexivity]|].
  destruct (weekday_next t A) as [B E]. split; [exact B|]. now rewrite E.
Qed.
Lemma falls_in_month y m : (exists k, falls_on (y, m, 1) k) -> forall i, 1 + Z.of_nat i <= month_length y m -> exists k, falls_on (y, m, 1 + Z.of_nat i) k.
Proof.
  intros E i. induction i as [|i IH]; intros L; [exact E|]. destruct IH as [k F]; [lia|]. apply falls_next in F. unfold tomorrow in F.
  destruct (Z.ltb_spec (1 + Z.of_nat i) (month_length y m)); [|lia]. replace (1 + Z.of_nat (S i)) with (1 + Z.of_nat i + 1) by lia. eexists. exact F.
Qed.
Lemma length_28 y m : 28 <= month_length y m <= 31.
Proof. unfold month_length. destruct (leap y); repeat match goal with |- context [if ?b then _ else _] => destruct b end; lia. Qed.
Lemma falls_last y m : (exists k, falls_on (y, m, 1) k) -> exists k, falls_on (if m <? 12 then (y, m + 1, 1) else (y + 1, 1, 1)) k.
Proof.
  intros E. pose proof (length_28 y m) as L. destruct (falls_in_month y m E (Z.to_nat (month_length y m - 1))) as [k F]; [lia|].
  replace (1 + Z.of_nat (Z.to_nat (month_length y m - 1))) with (month_length y m) in F by lia. apply falls_next in F. unfold tomorrow in F.
  rewrite Z.ltb_irrefl in F. eexists. exact F.
Qed.
Lemma falls_in_year y : (exists k, falls_on (y, 1, 1) k) -> forall i, 1 + Z.of_nat i <= 12 -> exists k, falls_on (y, 1 + Z.of_nat i, 1) k.
Proof.
  intros E i. induction i as [|i IH]; intros L; [exact E|]. specialize (IH ltac:(lia)). apply falls_last in IH.
  destruct (Z.ltb_spec (1 + Z.of_nat i) 12); [|lia]. replace (1 + Z.of_nat (S i)) with (1 + Z.of_nat i + 1) by lia. exact IH.
Qed.
Lemma falls_new_year i : exists k, falls_on (1 + Z.of_nat i, 1, 1) k.
Proof.
  induction i as [|i IH]; [exists 1; exact falls_first|]. pose proof (falls_in_year _ IH 11 ltac:(lia)) as F. change (1 + Z.of_nat 11) with 12 in F.
  apply falls_last in F. cbn [Z.ltb Z.compare Pos.compare Pos.compare_cont] in F. replace (1 + Z.of_nat (S i)) with (1 + Z.of_nat i + 1) by lia. exact F.
Qed.
Lemma falls_some t : a_date t -> exists k, falls_on t k.
Proof.
  destruct t as [[y m] d]. intros (Y & M & D).
  pose proof (falls_new_year (Z.to_nat (y - 1))) as E. replace (1 + Z.of_nat (Z.to_nat (y - 1))) with y in E by lia.
  pose proof (falls_in_year y E (Z.to_nat (m - 1)) ltac:(lia)) as E1. replace (1 + Z.of_nat (Z.to_nat (m - 1))) with m in E1 by lia.
  pose proof (falls_in_month y m E1 (Z.to_nat (d - 1)) ltac:(lia)) as E2. now replace (1 + Z.of_nat (Z.to_nat (d - 1))) with d in E2 by lia.
Qed.

Section Day.
  Variable items : list ritem.
  Variable fa : nat -> Z.
  Variable si : bytes -> Z.
  Variable sy : Z -> list aval -> sst -> outcome (aval * sst).
  Lemma day_call y m d st : 1 <= y <= 1700000000 -> 1 <= m <= 12 -> 1 <= d <= 31 ->
    run_call items fa si sy 20 day_fun [AS (SInt y); AS (SInt m); AS (SInt d)] st = Done (AS (SInt (weekday (y, m, d))), st).
  Proof.
    intros Y M D. unfold weekday. 
    assert (A1 : m <= 2 -> (14 - m) / 12 = 1). { intros L. assert (m = 1 \/ m = 2) as [->| ->] by lia; reflexivity. }
    assert (A2 : 3 <= m -> (14 - m) / 12 = 0). { intros L. apply Z.div_small. lia. }
    assert (A : 0 <= (14 - m) / 12 <= 1) by (destruct (Z.leb_spec m 2); [rewrite A1|rewrite A2]; lia).
    sym1. rewrite do_sub by lia. sym1. rewrite do_div by lia. sym1. set (a := (14 - m) / 12) in *. clearbody a.
    rewrite do_mul by lia. sym1. rewrite do_add by lia. sym1. rewrite do_sub by lia. sym1. rewrite do_sub by lia. sym1.
    set (mm := m + 12 * a - 2) in *. assert (B : 1 <= mm <= 12) by lia. clearbody mm. set (yy := y - a) in *. assert (C : 0 <= yy <= 1700000000) by lia. clearbody yy.
    rewrite do_mul by lia. sym1. rewrite do_sub by lia. sym1. rewrite do_div by lia. sym1. set (e := (13 * mm - 1) / 5) in *.
    assert (E : 0 <= e <= 40). { subst e. split; [apply Z.div_pos; lia|]. apply Z.div_le_upper_bound; lia. } clearbody e.
    rewrite do_add by lia. sym1. rewrite do_add by lia. sym1. rewrite do_div by lia. sym1.
    assert (Q1 : 4 * (yy / 4) <= yy) by (apply Z.mul_div_le; lia). assert (P1 : 0 <= yy / 4) by (apply Z.div_pos; lia).
    assert (Q2 : 100 * (yy / 100) <= yy) by (apply Z.mul_div_le; lia). assert (P2 : 0 <= yy / 100) by (apply Z.div_pos; lia).
    assert (Q3 : 400 * (yy / 400) <= yy) by (apply Z.mul_div_le; lia). assert (P3 : 0 <= yy / 400) by (apply Z.div_pos; lia).
    rewrite do_add by lia. sym1. rewrite do_div by lia. sym1. rewrite do_sub by lia. sym1. rewrite do_div by lia. sym1. rewrite do_add by lia. sym1.
    rewrite do_mod by lia. reflexivity.
  Qed.
End Day.

(** ** C125: what the example programs compute

    For every argument, with and without the optimiser, for every collector. *)
Lemma fib_lift vs c j :
  Forall (fun v => forall s, v = Some (SStr s) -> ~ In 0 s) vs ->
  (forall fa si sy st, run_call fib_items fa si sy j fib_fun (map passed vs) st = Done (AS c, st)) ->
  host_gets fib_text (bs "fib") vs (SeenCall true (ShScalar c) None).
Proof.
  intros Nn R. apply (lift fib_text fib_items (snd (say_tree fib_text))) with (start := fun w => St [] [] w []) (x := fib_fun) (j := j);
    [vm_compute; reflexivity|vm_compute; discriminate|apply unshared_b_ok; vm_compute; reflexivity
    |intros [|]; vm_compute; reflexivity|intros [|]; apply fitsb_ok; vm_compute; reflexivity|reflexivity|intros on w; reflexivity
    |reflexivity|exact Nn|intros [|]; eexists; vm_compute; reflexivity|intros on st q; apply R].
Qed.
Lemma fac_lift vs c j :
  Forall (fun v => forall s, v = Some (SStr s) -> ~ In 0 s) vs ->
  (forall fa si sy st, run_call fac_items fa si sy j fac_fun (map passed vs) st = Done (AS c, st)) ->
  host_gets fac_text (bs "factoral") vs (SeenCall true (ShScalar c) None).
Proof.
  intros Nn R. apply (lift fac_text fac_items (snd (say_tree fac_text))) with (start := fun w => St [] [] w []) (x := fac_fun) (j := j);
    [vm_compute; reflexivity|vm_compute; discriminate|apply unshared_b_ok; vm_compute; reflexivity
    |intros [|]; vm_compute; reflexivity|intros [|]; apply fitsb_ok; vm_compute; reflexivity|reflexivity|intros on w; reflexivity
    |reflexivity|exact Nn|intros [|]; eexists; vm_compute; reflexivity|intros on st q; apply R].
Qed.
Definition day_start (w : world) : sst := Eval vm_compute in
  match initial day_items (fun _ => 0) (fun _ => 0) (fun _ _ _ => Undefined) 20 (fresh_state w) with Done st => st | _ => fresh_state w end.
Lemma day_lift vs c j :
  Forall (fun v => forall s, v = Some (SStr s) -> ~ In 0 s) vs ->
  (forall fa si sy st, run_call day_items fa si sy j day_fun (map passed vs) st = Done (AS c, st)) ->
  host_gets day_text (bs "wday") vs (SeenCall true (ShScalar c) None).
Proof.
  intros Nn R. apply (lift day_text day_items (snd (say_tree day_text))) with (start := day_start) (x := day_fun) (j := j);
    [vm_compute; reflexivity|vm_compute; discriminate|apply unshared_b_ok; vm_compute; reflexivity
    |intros [|]; vm_compute; reflexivity|intros [|]; apply fitsb_ok; vm_compute; reflexivity|reflexivity|intros on w; reflexivity
    |reflexivity|exact Nn|intros [|]; eexists; vm_compute; reflexivity|intros on st q; apply R].
Qed.

(** fib(n) is the n-th Fibonacci number, and 1 below that, as long as it fits in an int. *)
Theorem C125_fib : forall n, n <= 46 ->
  host_gets fib_text (bs "fib") [Some (SInt n)] (SeenCall true (ShScalar (SInt (fibonacci (Z.to_nat (Z.max 1 n))))) None).
Proof.
  intros n L. apply (fib_lift _ _ (20 + Z.to_nat n)); [constructor; [discriminate|constructor]|]. intros fa si sy st. now apply fib_call.
Qed.
(** Finding: beyond that the program computes a sum that an int cannot hold, which
    is undefined in C++ and in the model. *)
Theorem C125_fib_overflows : forall n on st, 47 <= n <= 2147483647 ->
  let q := driver_resolve (compiled on fib_text) in
  exists f, named (fst (say_tree fib_text)) (bs "fib") = Some f /\
    run_call (fst (say_tree fib_text)) (entry (fst (say_tree fib_text)) q) (sys_index q) (vm_sys q) 100 f [AS (SInt n)] st = Undefined.
Proof.
  intros n on st L q. exists fib_fun. split; [vm_compute; reflexivity|]. now apply fib_too_far.
Qed.
(** factoral(n) is the factorial of n, and 1 below 0, as long as it fits in an int. *)
Theorem C125_factoral : forall n, n <= 12 ->
  host_gets fac_text (bs "factoral") [Some (SInt n)] (SeenCall true (ShScalar (SInt (factorial (Z.to_nat n)))) None).
Proof.
  intros n L. apply (fac_lift _ _ 120); [constructor; [discriminate|constructor]|]. intros fa si sy st. now apply fac_call.
Qed.
(** wday(year, month, day) is the day of the week, for every date from the year 1 on. *)
Theorem C125_wday : forall y m d, a_date (y, m, d) -> y <= 1700000000 ->
  exists k, falls_on (y, m, d) k /\
    host_gets day_text (bs "wday") [Some (SInt y); Some (SInt m); Some (SInt d)] (SeenCall true (ShScalar (SInt k)) None).
Proof.
  intros y m d A Y. destruct (falls_some _ A) as [k F]. exists k. split; [exact F|]. destruct (falls_weekday _ _ F) as [_ ->].
  destruct A as (Y1 & M & D). pose proof (length_28 y m) as L.
  apply (day_lift _ _ 20); [repeat (constructor; [discriminate|]); constructor|]. intros fa si sy st. apply day_call; lia.
Qed.
(** A date falls on one day of the week only. *)
Theorem C125_one_day : forall t k k', falls_on t k -> falls_on t k' -> k = k' /\ 0 <= k < 7.
Proof.
  intros t k k' F F'. destruct (falls_weekday _ _ F) as [_ ->], (falls_weekday _ _ F') as [_ ->]. split; [reflexivity|].
  destruct t as [[y m] d]. unfold weekday. apply Z.mod_pos_bound. lia.
Qed.
(** The examples themselves, run by the driver; the 2nd of August 2019 was a friday;
    and the vm does stop at the overflow. *)
Example C125_ex :
  (exists i, say_run fib_text = Ok (Ran 0 (w_put world0 (bs "exit: 34" ++ [10])) (Some i) None)) /\
  (exists i, say_run fac_text = Ok (Ran 0 (w_put world0 (bs "exit: 24" ++ [10])) (Some i) None)) /\
  (exists i, say_run day_text = Ok (Ran 0 (w_put world0 (bs "friday" ++ [10] ++ bs "exit: 0" ++ [10])) (Some i) None)) /\
  a_date (2019, 8, 2) /\ falls_on (2019, 8, 2) 5 /\ fibonacci (Z.to_nat (Z.max 1 9)) = 34 /\
  (forall on, exists v1 v2, let q := driver_resolve (compiled on fib_text) in
     host_step q (cfg_ops cfg_always) 500 HCallInit (vm_start 0 world0) = Ok (SeenFlag true, v1) /\ init_done v1 /\
     host_gc q 900 [(cfg_always, call_op q (bs "fib", [Some (SInt 46)]))] v1 = Ok ([SeenCall true (ShScalar (SInt 1836311903)) None], v2) /\
     host_gc q 900 [(cfg_always, call_op q (bs "fib", [Some (SInt 47)]))] v1 = Stuck SOverflow).
Proof.
  split; [eexists; vm_compute; reflexivity|]. split; [eexists; vm_compute; reflexivity|]. split; [eexists; vm_compute; reflexivity|].
  split; [repeat split; discriminate|]. split.
  { destruct (falls_some (2019, 8, 2)) as [k F]; [repeat split; discriminate|]. destruct (falls_weekday _ _ F) as [_ E]. change (weekday (2019, 8, 2)) with 5 in E. now subst k. }
  split; [reflexivity|]. intros [|]; eexists _, _; (split; [vm_compute; reflexivity|]; split; [eexists [], _; split; reflexivity|]; split; vm_compute; reflexivity).
Qed.

Print Assumptions C125_fib.
Print Assumptions C125_fib_overflows.
Print Assumptions C125_factoral.
Print Assumptions C125_wday.
Print Assumptions C125_one_day.
