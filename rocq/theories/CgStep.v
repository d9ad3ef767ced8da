(** Proof support: single steps of the machine on the ideal heap, seen as steps
    between configurations (everything but cycle counts, halts and waits). *)
From Coq Require Import ZArith List Bool Lia ZifyBool String.
From Verif Require Import Base BaseFacts F32 Instr InstrSpec InstrProofs Program VM AbsHeap VmSpec VmFacts Ast Sema Codegen SrcSem CgCode.
Import ListNotations.
Open Scope Z_scope.
Open Scope list_scope.

Record config : Type := Cfg {
  c_heap : aheap; c_glob : list aval; c_world : world; c_new : list (thread aval); c_post : list (thread aval);
  c_pc : Z; c_stk : list aval; c_frs : list frame; c_err : option terr; c_fin : bool
}.
Definition core (s : mst aval aheap) : config :=
  Cfg (m_heap s) (m_glob s) (m_world s) (m_pre s) (m_post s)
      (t_pc (m_cur s)) (t_stk (m_cur s)) (t_frs (m_cur s)) (t_err (m_cur s)) (t_fin (m_cur s)).

Section Steps.
  Variable prog : program_t.
  Notation mst := (mst aval aheap).

  Definition cstep (c c' : config) : Prop :=
    forall s, core s = c -> exists s', step_imp abs_ops prog s = Ok (tt, s') /\ core s' = c'.

  (** [Q] holds after some steps, none of them by a finished thread, or the
      stack grows past what a 32-bit index can address *)
  Inductive ev (Q : config -> Prop) (c : config) : Prop :=
  | ev_now : Q c -> ev Q c
  | ev_huge : i32_max < zlen (c_stk c) -> ev Q c
  | ev_step : forall c', c_fin c = false -> cstep c c' -> ev Q c' -> ev Q c.

  Lemma finish_core (s : mst) : exists s', finish_step prog s = Ok (tt, s') /\ core s' = core s.
  Proof.
    unfold finish_step, check_breakpoints, mbind, mod_cur. cbn [m_heap m_glob m_world m_pre m_cur m_post].
    eexists. split; [reflexivity|]. unfold core. destruct s as [h g w pre [tpc stk frs err fin hal cyc wts last bps] post].
    cbn [m_heap m_glob m_world m_pre m_cur m_post t_bps]. destruct bps; reflexivity.
  Qed.

  Definition with_pc (c : config) (a : Z) : config :=
    Cfg (c_heap c) (c_glob c) (c_world c) (c_new c) (c_post c) a (c_stk c) (c_frs c) (c_err c) (c_fin c).
  Definition runs (k : @M aval aheap unit) (c c' : config) : Prop :=
    forall s, core s = c -> exists u s', k s = Ok (u, s') /\ core s' = c'.

  Lemma cstep0 c i c' : at_ins prog (c_pc c) (I0 i) ->
    runs (do_ins abs_ops prog i) (with_pc c (c_pc c + 1)) c' -> cstep c c'.
  Proof.
    intros A R s E. subst c. rewrite (step_at abs_ops prog s (I0 i)) by exact A. cbn [ins_op].
    destruct (R (with_cur s (t_set_pc (m_cur s) (pc s + 1)))) as (u & s1 & D & C); [reflexivity|].
    unfold mbind. rewrite D. destruct (finish_core s1) as (s2 & F & G). exists s2. split; [exact F|congruence].
  Qed.
  Lemma cstep1 c i o k c' : at_ins prog (c_pc c) (I1 i o) ->
    do_ins abs_ops prog i = mbind (operand prog) k -> runs (k o) (with_pc c (c_pc c + 5)) c' -> cstep c c'.
  Proof.
    intros A K R s E. subst c. rewrite (step_at abs_ops prog s (I1 i o)) by exact A. cbn [ins_op]. rewrite K.
    unfold mbind at 1. unfold mbind at 1. rewrite (operand1_at prog s i o) by exact A.
    destruct (R (with_cur s (t_set_pc (m_cur s) (pc s + 5)))) as (u & s1 & D & C); [reflexivity|].
    rewrite D. destruct (finish_core s1) as (s2 & F & G). exists s2. split; [exact F|congruence].
  Qed.
  Lemma cstep2 c i o1 o2 k c' : at_ins prog (c_pc c) (I2 i o1 o2) ->
    do_ins abs_ops prog i = mbind (operand prog) (fun a => mbind (operand prog) (k a)) ->
    runs (k o1 o2) (with_pc c (c_pc c + 9)) c' -> cstep c c'.
  Proof.
    intros A K R s E. subst c. rewrite (step_at abs_ops prog s (I2 i o1 o2)) by exact A. cbn [ins_op]. rewrite K.
    destruct (operand2_at prog s i o1 o2 A) as [O1 O2].
    unfold mbind at 1. unfold mbind at 1. rewrite O1. unfold mbind at 1. rewrite O2.
    destruct (R (with_cur s (t_set_pc (m_cur s) (pc s + 9)))) as (u & s1 & D & C); [reflexivity|].
    rewrite D. destruct (finish_core s1) as (s2 & F & G). exists s2. split; [exact F|congruence].
  Qed.
  (** an operand read after the top of the stack has been looked at *)
  Lemma operand_later (s : mst) i o : at_ins prog (pc s - 1) (I1 i o) ->
    operand prog s = Ok (o, with_cur s (t_set_pc (m_cur s) (pc s + 4))).
  Proof.
    intros A. destruct (at_operand1 _ _ _ _ A) as (r & R). destruct A as (L & P & _).
    replace (pc s - 1 + 1) with (pc s) in R by lia. apply (operand_at prog s o r); [exact L|lia|exact R].
  Qed.

  Lemma at_ins_pc (s : mst) a x : c_pc (core s) = a -> at_ins prog a x -> at_ins prog (pc s) x.
  Proof. intros <-. trivial. Qed.

  Ltac core_in s E :=
    destruct s as [h0 g0 w0 pre0 [tpc0 stk0 frs0 err0 fin0 hal0 cyc0 wts0 last0 bps0] post0];
    unfold core, with_pc in E; cbn [m_heap m_glob m_world m_pre m_cur m_post t_pc t_stk t_frs t_err t_fin
      c_heap c_glob c_world c_new c_post c_pc c_stk c_frs c_err c_fin] in E; inversion E; subst; clear E.
  Ltac easy_run := intros s0 Es; core_in s0 Es; mcbv; cbn; eexists _, _; split; reflexivity.

  Section Instr.
  Variables (h : aheap) (g : list aval) (w : world) (nw post : list (thread aval)).
  Variables (a : Z) (stk : list aval) (frs : list frame).
  Notation C p s := (Cfg h g w nw post p s frs None false).
  Notation Fail p s e := (Cfg h g w nw post p s frs (Some e) true).

  Lemma st_int v : at_ins prog a (I1 INS_NEW_INT v) -> cstep (C a stk) (C (a + 5) (AS (SInt v) :: stk)).
  Proof. intros A. eapply cstep1; [exact A|reflexivity|]. easy_run. Qed.
  Lemma st_flt v : at_ins prog a (I1 INS_NEW_FLT v) ->
    cstep (C a stk) (C (a + 5) (AS (SFlt (f_of_bits (to_u32 v))) :: stk)).
  Proof. intros A. eapply cstep1; [exact A|reflexivity|]. easy_run. Qed.
  Lemma st_none : at_ins prog a (I0 INS_NEW_NONE) -> cstep (C a stk) (C (a + 1) (ANone :: stk)).
  Proof. intros A. eapply cstep0; [exact A|]. easy_run. Qed.
  Lemma st_str i x : at_ins prog a (I1 INS_NEW_STR i) -> znth (p_strings prog) i = Some x ->
    cstep (C a stk) (C (a + 5) (AS (SStr x) :: stk)).
  Proof.
    intros A X. eapply cstep1; [exact A|reflexivity|]. intros s0 Es. core_in s0 Es.
    assert (L : i <? zlen (p_strings prog) = true) by (apply znth_some in X; lia).
    mcbv. rewrite L, X. cbn. eexists _, _; split; reflexivity.
  Qed.
  Lemma st_fun v : at_ins prog a (I1 INS_NEW_FUNC v) -> 0 <= v ->
    cstep (C a stk) (C (a + 5) (AS (SFun v) :: stk)).
  Proof.
    intros A X. eapply cstep1; [exact A|reflexivity|]. intros s0 Es. core_in s0 Es.
    mcbv. replace (0 <=? v) with true by lia. cbn. eexists _, _; split; reflexivity.
  Qed.
  Lemma st_sys v : at_ins prog a (I1 INS_NEW_SCALL v) -> 0 <= v ->
    cstep (C a stk) (C (a + 5) (AS (SSys v) :: stk)).
  Proof.
    intros A X. eapply cstep1; [exact A|reflexivity|]. intros s0 Es. core_in s0 Es.
    mcbv. replace (0 <=? v) with true by lia. cbn. eexists _, _; split; reflexivity.
  Qed.
  Lemma st_getg i v : at_ins prog a (I1 INS_GETG i) -> znth g i = Some v ->
    cstep (C a stk) (C (a + 5) (v :: stk)).
  Proof.
    intros A X. eapply cstep1; [exact A|reflexivity|]. intros s0 Es. core_in s0 Es.
    mcbv. rewrite X. cbn. eexists _, _; split; reflexivity.
  Qed.
  Lemma st_setg i v x : at_ins prog a (I1 INS_SETG i) -> znth g i = Some x ->
    cstep (C a (v :: stk)) (Cfg h (zupd g i v) w nw post (a + 5) stk frs None false).
  Proof.
    intros A X. eapply cstep1; [exact A|reflexivity|]. intros s0 Es. core_in s0 Es.
    mcbv. rewrite X. cbn. eexists _, _; split; reflexivity.
  Qed.
  Lemma st_jmp o : at_ins prog a (I1 INS_JMP o) -> cstep (C a stk) (C o stk).
  Proof. intros A. eapply cstep1; [exact A|reflexivity|]. easy_run. Qed.
  Lemma st_tjmp o v wv : at_ins prog a (I1 INS_TJMP o) -> abs_view h v = Ok wv ->
    cstep (C a (v :: stk)) (C (if as_bool (plain wv) then o else a + 5) stk).
  Proof.
    intros A X. eapply cstep1; [exact A|reflexivity|]. intros s0 Es. core_in s0 Es.
    mcbv. cbn [h_view abs_ops]. rewrite X. destruct (as_bool (plain wv)); eexists _, _; split; reflexivity.
  Qed.
  Lemma st_fjmp o v wv : at_ins prog a (I1 INS_FJMP o) -> abs_view h v = Ok wv ->
    cstep (C a (v :: stk)) (C (if as_bool (plain wv) then a + 5 else o) stk).
  Proof.
    intros A X. eapply cstep1; [exact A|reflexivity|]. intros s0 Es. core_in s0 Es.
    mcbv. cbn [h_view abs_ops]. rewrite X. destruct (as_bool (plain wv)); eexists _, _; split; reflexivity.
  Qed.
  Lemma st_pop v : at_ins prog a (I1 INS_POP 1) -> cstep (C a (v :: stk)) (C (a + 5) stk).
  Proof. intros A. eapply cstep1; [exact A|reflexivity|]. easy_run. Qed.
  Lemma st_locals k : at_ins prog a (I1 INS_LOCALS k) -> 0 <= k ->
    cstep (C a stk) (C (a + 5) (zrepeat ANone k ++ stk)).
  Proof.
    intros A X. eapply cstep1; [exact A|reflexivity|]. intros s0 Es. core_in s0 Es.
    mcbv. replace (k <? 0) with false by lia. eexists _, _; split; reflexivity.
  Qed.
  Lemma st_globals k : at_ins prog a (I1 INS_GLOBALS k) -> 0 <= k ->
    cstep (C a stk) (Cfg h (if k =? 0 then g else zrepeat ANone k) w nw post (a + 5) stk frs None false).
  Proof.
    intros A X. eapply cstep1; [exact A|reflexivity|]. intros s0 Es. core_in s0 Es.
    mcbv. destruct (k =? 0) eqn:Z0; [eexists _, _; split; reflexivity|].
    replace (k <? 0) with false by lia. eexists _, _; split; reflexivity.
  Qed.
  Lemma st_bin o x y wx wy : at_ins prog a (I0 (ins_of_bin o)) -> abs_view h x = Ok wx -> abs_view h y = Ok wy ->
    match binary o (plain wx) (plain wy) with
    | Ok (OPush c) => cstep (C a (y :: x :: stk)) (C (a + 1) (AS c :: stk))
    | Ok (ORaise e) => cstep (C a (y :: x :: stk)) (Fail (a + 1) stk e)
    | _ => True
    end.
  Proof.
    intros A X Y.
    assert (D : do_ins abs_ops prog (ins_of_bin o) =
      mbind (pop_v abs_ops) (fun r => mbind (pop_v abs_ops) (fun l => finish_op abs_ops (binary o (plain l) (plain r)))))
      by (destruct o; reflexivity).
    destruct (binary o (plain wx) (plain wy)) as [[c|e]| |] eqn:B; try exact I.
    all: eapply cstep0; [exact A|]; intros s0 Es; core_in s0 Es; rewrite D; unfold mbind at 1;
      rewrite (pop_v_eq _ _ _ _ y (x :: stk)) by reflexivity; cbn [h_view abs_ops m_heap]; rewrite Y;
      unfold mbind at 1; rewrite (pop_v_eq _ _ _ _ x stk) by reflexivity; cbn [h_view abs_ops m_heap with_cur]; rewrite X;
      unfold finish_op, mbind at 1, lift; rewrite B; eexists _, _; split; reflexivity.
  Qed.
  Lemma st_un o x wx : at_ins prog a (I0 (ins_of_un o)) -> abs_view h x = Ok wx ->
    match unary o (plain wx) with
    | Ok (OPush c) => cstep (C a (x :: stk)) (C (a + 1) (AS c :: stk))
    | Ok (ORaise e) => cstep (C a (x :: stk)) (Fail (a + 1) stk e)
    | _ => True
    end.
  Proof.
    intros A X.
    assert (D : do_ins abs_ops prog (ins_of_un o) =
      mbind (pop_v abs_ops) (fun l => finish_op abs_ops (unary o (plain l))))
      by (destruct o; reflexivity).
    destruct (unary o (plain wx)) as [[c|e]| |] eqn:B; try exact I.
    all: eapply cstep0; [exact A|]; intros s0 Es; core_in s0 Es; rewrite D; unfold mbind at 1;
      rewrite (pop_v_eq _ _ _ _ x stk) by reflexivity; cbn [h_view abs_ops m_heap]; rewrite X;
      unfold finish_op, mbind at 1, lift; rewrite B; eexists _, _; split; reflexivity.
  Qed.
  Lemma st_call n f : at_ins prog a (I2 INS_CALL n f) ->
    cstep (C a stk) (Cfg h g w nw post f stk (Frame (zlen stk) (a + 9) f false :: frs) None false).
  Proof. intros A. eapply cstep2; [exact A|reflexivity|]. easy_run. Qed.
  Lemma st_icall n f x : at_ins prog a (I1 INS_ICALL n) -> function_find_pc prog f = Some x -> num_args x = n ->
    cstep (C a (AS (SFun f) :: stk))
          (Cfg h g w nw post f stk (Frame (zlen stk) (a + 5) f false :: frs) None false).
  Proof.
    intros A F N. eapply cstep1; [exact A|reflexivity|]. intros s0 Es. core_in s0 Es.
    mcbv. cbn [h_view abs_ops abs_view]. rewrite F, Z.eqb_refl. eexists _, _; split; reflexivity.
  Qed.
  Lemma st_icall_bad n f x : at_ins prog a (I1 INS_ICALL n) -> function_find_pc prog f = Some x -> num_args x <> n ->
    cstep (C a (AS (SFun f) :: stk))
          (Cfg h g w nw post f stk (Frame (zlen stk) (a + 5) f false :: frs) (Some e_bad_num_args) true).
  Proof.
    intros A F N. eapply cstep1; [exact A|reflexivity|]. intros s0 Es. core_in s0 Es.
    mcbv. cbn [h_view abs_ops abs_view]. rewrite F. replace (num_args x =? n) with false by lia.
    eexists _, _; split; reflexivity.
  Qed.
  Lemma st_icall_no n v wv : at_ins prog a (I1 INS_ICALL n) -> abs_view h v = Ok wv ->
    match wv with WNone => False | WS (SFun _) => False | WS (SSys _) => False | _ => True end ->
    cstep (C a (v :: stk)) (Fail (a + 5) stk e_bad_type_operation).
  Proof.
    intros A V N. eapply cstep1; [exact A|reflexivity|]. intros s0 Es. core_in s0 Es.
    mcbv. cbn [h_view abs_ops]. rewrite V.
    destruct wv as [|[]|]; try contradiction; eexists _, _; split; reflexivity.
  Qed.
  Lemma st_aryinit vs : at_ins prog a (I1 INS_ARY_INIT (zlen vs)) -> vs <> [] ->
    cstep (C a (rev vs ++ stk)) (Cfg (h ++ [vs]) g w nw post (a + 5) (AArr (zlen h) :: stk) frs None false).
  Proof.
    intros A N. eapply cstep1; [exact A|reflexivity|]. intros s0 Es. core_in s0 Es.
    assert (P : 0 <? zlen vs = true) by (destruct vs; [congruence|rewrite zlen_cons; pose proof (zlen_nonneg vs); lia]).
    unfold mbind at 1, lift, assert_. rewrite P.
    assert (Q : forall l k (s : mst), t_stk (m_cur s) = l ++ k ->
      pop_n (H := aheap) (Z.to_nat (zlen l)) s = Ok (l, with_cur s (t_set_stk (m_cur s) k))).
    { induction l as [|x l IH]; intros k s E.
      - cbn. unfold ret. destruct s as [? ? ? ? [] ?]. cbn in E. subst. reflexivity.
      - rewrite zlen_cons. replace (Z.to_nat (zlen l + 1)) with (S (Z.to_nat (zlen l))) by (pose proof (zlen_nonneg l); lia).
        cbn [pop_n]. unfold mbind at 1, pop. rewrite E. cbn [app].
        unfold mbind at 1, mod_cur, ret. unfold mbind at 1. rewrite (IH k) by reflexivity. reflexivity. }
    unfold mbind at 1. rewrite <- (zlen_rev vs). rewrite (Q (rev vs) stk) by reflexivity.
    unfold mbind at 1, new_a. cbn [h_newA abs_ops m_heap with_cur]. rewrite rev_involutive.
    eexists _, _; split; reflexivity.
  Qed.
  Lemma st_getm k x v st : at_ins prog a (I1 INS_GETM k) -> znth (p_strings prog) k = Some x -> s_heap st = h ->
    match member v x st with
    | Done (y, st') => st' = st /\ cstep (C a (v :: stk)) (C (a + 5) (y :: stk))
    | Error e st' => st' = st /\ cstep (C a (v :: stk)) (Fail (a + 5) stk e)
    | _ => True
    end.
  Proof.
    intros A X Hh. unfold member, look. rewrite Hh.
    destruct (abs_view h v) as [wv| |] eqn:V; [cbn [obind]|exact I|exact I].
    assert (K : forall c', runs match wv with
            | WA l => if bytes_eqb x (bs "length") then push_s abs_ops (SInt (zlen l))
                      else raise e_bad_member_access
            | _ => raise e_bad_member_access
            end (C (a + 5) stk) c' -> cstep (C a (v :: stk)) c').
    { intros c' Q s E. pose proof (at_ins_pc s a) as PA. specialize (PA (I1 INS_GETM k)).
      rewrite (step_at abs_ops prog s (I1 INS_GETM k)) by (apply PA; [now rewrite E|exact A]).
      core_in s E. cbn [do_ins ins_op]. unfold mbind at 1. unfold mbind at 1.
      rewrite (pop_v_eq _ _ _ _ v stk) by reflexivity.
      cbn [h_view abs_ops m_heap with_cur]. rewrite V. unfold mbind at 1.
      rewrite (operand_later _ INS_GETM k).
      2: { unfold pc. cbn [with_cur m_cur t_set_stk t_set_pc t_pc]. replace (a + 1 - 1) with a by lia. exact A. }
      rewrite X. unfold pc. cbn [with_cur m_cur t_set_stk t_set_pc t_pc t_stk t_frs t_err t_fin t_hal t_cyc t_waits t_last t_bps m_heap m_glob m_world m_pre m_post].
      replace (a + 1 + 4) with (a + 5) by lia.
      match goal with |- context [match wv with _ => _ end ?s1] => destruct (Q s1) as (u & s2 & Q1 & Q2); [reflexivity|] end.
      rewrite Q1. destruct (finish_core s2) as (s3 & F & G). exists s3. split; [exact F|congruence]. }
    destruct wv as [| |l]; [| |destruct (bytes_eqb x (bs "length"))]; (split; [reflexivity|]); apply K; easy_run.
  Qed.
  Lemma st_setm k x v1 v2 : at_ins prog a (I1 INS_SETM k) -> znth (p_strings prog) k = Some x ->
    cstep (C a (v1 :: v2 :: stk)) (Fail (a + 5) stk e_bad_member_access).
  Proof.
    intros A X s E. pose proof (at_ins_pc s a) as PA. specialize (PA (I1 INS_SETM k)).
    rewrite (step_at abs_ops prog s (I1 INS_SETM k)) by (apply PA; [now rewrite E|exact A]).
    core_in s E. cbn [do_ins ins_op]. unfold mbind at 1. unfold mbind at 1.
    unfold pop. cbn [with_cur m_cur t_set_pc t_stk]. unfold mbind at 1. unfold mod_cur, ret. unfold mbind at 1.
    cbn [with_cur m_cur t_set_pc t_set_stk t_stk]. unfold mbind at 1. unfold mbind at 1.
    rewrite (operand_later _ INS_SETM k).
    2: { unfold pc. cbn [with_cur m_cur t_set_stk t_set_pc t_pc]. replace (a + 1 - 1) with a by lia. exact A. }
    rewrite X. unfold pc. cbn [with_cur m_cur t_set_stk t_set_pc t_pc t_stk t_frs t_err t_fin t_hal t_cyc t_waits t_last t_bps m_heap m_glob m_world m_pre m_post].
    replace (a + 1 + 4) with (a + 5) by lia. unfold raise, mod_cur.
    match goal with |- context [finish_step prog ?s1] => destruct (finish_core s1) as (s3 & F & G); rewrite F end.
    exists s3. split; [reflexivity|]. rewrite G. reflexivity.
  Qed.
  Lemma st_deref v i st : at_ins prog a (I0 INS_DEREF) -> s_heap st = h ->
    match element v i st with
    | Done (y, st') => st' = st /\ cstep (C a (v :: i :: stk)) (C (a + 1) (y :: stk))
    | Error e st' => st' = st /\ cstep (C a (v :: i :: stk)) (Fail (a + 1) stk e)
    | _ => True
    end.
  Proof.
    intros A Hh. unfold element, look. rewrite Hh.
    destruct (abs_view h v) as [wv| |] eqn:V; [cbn [obind]|exact I|exact I].
    assert (K : forall c', runs match wv with
        | WNone => raise e_bad_array_object
        | _ =>
            mbind (deref abs_ops i) (fun iv =>
            match iv with
            | WS (SInt k) =>
                match wv with
                | WA l => match znth l k with
                          | Some p => push p
                          | None => raise e_bad_array_bounds
                          end
                | WS (SStr s) => match znth s k with
                                 | Some c => push_s abs_ops (SInt c)
                                 | None => raise e_bad_array_bounds
                                 end
                | _ => raise e_bad_type_operation
                end
            | _ => raise e_bad_array_index
            end)
        end (C (a + 1) stk) c' -> cstep (C a (v :: i :: stk)) c').
    { intros c' Q. eapply cstep0; [exact A|]. intros s0 Es. core_in s0 Es.
      cbn [do_ins]. unfold mbind at 1. rewrite (pop_v_eq _ _ _ _ v (i :: stk)) by reflexivity.
      cbn [h_view abs_ops m_heap with_cur]. rewrite V. unfold mbind at 1. unfold pop.
      cbn [with_cur m_cur t_set_pc t_set_stk t_stk]. unfold mbind at 1. unfold mod_cur, ret.
      match goal with |- context [match wv with _ => _ end ?s1] => destruct (Q s1) as (u & s2 & Q1 & Q2); [reflexivity|] end.
      exists u, s2. split; [exact Q1|exact Q2]. }
    assert (R : forall (k : view aval -> @M aval aheap unit) wi c', abs_view h i = Ok wi -> runs (k wi) (C (a + 1) stk) c' ->
      runs (mbind (deref abs_ops i) k) (C (a + 1) stk) c').
    { intros k wi c' W Q s0 Es. unfold mbind, deref, lift. cbn [h_view abs_ops].
      assert (EH : m_heap s0 = h) by (now inversion Es). rewrite EH, W. auto. }
    destruct wv as [|c|l].
    - split; [reflexivity|]. apply K. easy_run.
    - destruct i as [|si|l0].
      + split; [reflexivity|]. apply K, (R _ _ _ eq_refl). easy_run.
      + destruct si as [k| | | |]; try (split; [reflexivity|]; apply K, (R _ _ _ eq_refl); easy_run).
        destruct c as [| |x| |]; try (split; [reflexivity|]; apply K, (R _ _ _ eq_refl); easy_run).
        destruct (znth x k) eqn:ZX; (split; [reflexivity|]); apply K, (R _ _ _ eq_refl); intros s0 Es; core_in s0 Es;
          rewrite ZX; eexists _, _; split; reflexivity.
      + destruct (abs_view h (AArr l0)) as [wi| |] eqn:W; [cbn [obind]|exact I|exact I].
        split; [reflexivity|]. apply K, (R _ _ _ eq_refl). cbn in W.
        destruct (znth h l0); inversion W; subst. easy_run.
    - destruct i as [|si|l0].
      + split; [reflexivity|]. apply K, (R _ _ _ eq_refl). easy_run.
      + destruct si as [k| | | |]; try (split; [reflexivity|]; apply K, (R _ _ _ eq_refl); easy_run).
        destruct (znth l k) eqn:ZX; (split; [reflexivity|]); apply K, (R _ _ _ eq_refl); intros s0 Es; core_in s0 Es;
          rewrite ZX; eexists _, _; split; reflexivity.
      + destruct (abs_view h (AArr l0)) as [wi| |] eqn:W; [cbn [obind]|exact I|exact I].
        split; [reflexivity|]. apply K, (R _ _ _ eq_refl). cbn in W.
        destruct (znth h l0); inversion W; subst. easy_run.
  Qed.
  Lemma st_seta p i v st : at_ins prog a (I0 INS_SETA) -> s_heap st = h ->
    match set_element p i v st with
    | Done st' => s_glob st' = s_glob st /\ s_world st' = s_world st /\ s_new st' = s_new st /\
        cstep (C a (p :: i :: v :: stk)) (Cfg (s_heap st') g w nw post (a + 1) stk frs None false)
    | Error e st' => st' = st /\ cstep (C a (p :: i :: v :: stk)) (Fail (a + 1) stk e)
    | _ => True
    end.
  Proof.
    intros A Hh. unfold set_element, look. rewrite Hh.
    destruct (abs_view h p) as [wp| |] eqn:V; [cbn [obind]|exact I|exact I].
    assert (K : forall c', runs match wp with
        | WA l =>
            mbind (deref abs_ops i) (fun iv =>
            match iv with
            | WS (SInt k) =>
                if (0 <=? k) && (k <? zlen l) then
                  mbind (deref abs_ops v) (fun vv =>
                  mbind (match vv with WA _ => ret v | _ => gc_copy abs_ops v end) (fun q =>
                  mbind (mget m_heap) (fun h0 =>
                  mbind (lift (h_set abs_ops h0 p k q)) (fun h' =>
                  set_heap h'))))
                else raise e_bad_array_bounds
            | _ => raise e_bad_array_index
            end)
        | _ => raise e_bad_array_object
        end (C (a + 1) stk) c' -> cstep (C a (p :: i :: v :: stk)) c').
    { intros c' Q. eapply cstep0; [exact A|]. intros s0 Es. core_in s0 Es.
      cbn [do_ins]. unfold mbind at 1. unfold pop at 1. cbn [with_cur m_cur t_set_pc t_set_stk t_stk]. unfold mbind at 1. unfold mod_cur, ret.
      unfold mbind at 1. unfold pop at 1. cbn [with_cur m_cur t_set_pc t_set_stk t_stk]. unfold mbind at 1. unfold mod_cur, ret.
      unfold mbind at 1. unfold pop at 1. cbn [with_cur m_cur t_set_pc t_set_stk t_stk]. unfold mbind at 1. unfold mod_cur, ret.
      unfold mbind at 1. unfold deref at 1, lift. cbn [h_view abs_ops m_heap with_cur]. rewrite V.
      match goal with |- context [match wp with _ => _ end ?s1] => destruct (Q s1) as (u & s2 & Q1 & Q2); [reflexivity|] end.
      exists u, s2. split; [exact Q1|exact Q2]. }
    assert (R : forall x (k : view aval -> @M aval aheap unit) wi c', abs_view h x = Ok wi -> runs (k wi) (C (a + 1) stk) c' ->
      runs (mbind (deref abs_ops x) k) (C (a + 1) stk) c').
    { intros x k wi c' W Q s0 Es. unfold mbind, deref, lift. cbn [h_view abs_ops].
      assert (EH : m_heap s0 = h) by (now inversion Es). rewrite EH, W. auto. }
    destruct p as [|c|loc].
    - split; [reflexivity|]. apply K. cbn in V. inversion V; subst. easy_run.
    - split; [reflexivity|]. apply K. cbn in V. inversion V; subst. easy_run.
    - cbn in V. destruct (znth h loc) as [l|] eqn:ZL; inversion V; subst; clear V.
      destruct i as [|si|l0].
      + split; [reflexivity|]. apply K; (eapply R; [first [exact W|reflexivity]|]). easy_run.
      + destruct si as [k| | | |]; try (split; [reflexivity|]; apply K; (eapply R; [reflexivity|]); easy_run).
        destruct ((0 <=? k) && (k <? zlen l)) eqn:Bd.
        * destruct (abs_view (s_heap st) v) as [vv| |] eqn:W; [cbn [obind]|exact I|exact I].
          repeat (split; [reflexivity|]). apply K; (eapply R; [first [exact W|reflexivity]|]). cbv beta iota. rewrite Bd. eapply R; [exact W|].
          intros s0 Es. core_in s0 Es. destruct v as [|cv|lv]; cbn in W.
          -- inversion W; subst. unfold gc_copy, mbind, deref, lift. cbn. unfold abs_set. rewrite ZL, Bd.
             eexists _, _; split; reflexivity.
          -- inversion W; subst. unfold gc_copy, mbind, deref, lift. cbn. unfold abs_set. rewrite ZL, Bd.
             eexists _, _; split; reflexivity.
          -- destruct (znth (s_heap st) lv); inversion W; subst. unfold mbind, deref, lift. cbn. unfold abs_set. rewrite ZL, Bd.
             eexists _, _; split; reflexivity.
        * split; [reflexivity|]. apply K; (eapply R; [reflexivity|]). cbv beta iota. rewrite Bd. easy_run.
      + destruct (abs_view (s_heap st) (AArr l0)) as [wi| |] eqn:W; [cbn [obind]|exact I|exact I].
        split; [reflexivity|]. apply K; (eapply R; [first [exact W|reflexivity]|]). cbn in W.
        destruct (znth (s_heap st) l0); inversion W; subst. easy_run.
  Qed.
  End Instr.

  Section Frames.
  Variables (h : aheap) (g : list aval) (w : world) (nw post : list (thread aval)).
  Variables (a : Z).
  Notation C p s f := (Cfg h g w nw post p s f None false).

  (** the caller's stack is below the arguments [A] and the locals [L] *)
  Lemma st_ret k v loc rest fr frs : at_ins prog a (I1 INS_RET k) -> zlen loc = k ->
    cstep (C a (v :: loc ++ rest) (fr :: frs))
          (Cfg h g w nw post (fr_ret fr) (v :: rest) frs None (fr_term fr || match frs with [] => true | _ => false end)).
  Proof.
    intros A L. eapply cstep1; [exact A|reflexivity|]. intros s0 Es. core_in s0 Es.
    pose proof (zlen_nonneg loc). pose proof (zlen_nonneg rest).
    unfold mbind at 1. unfold pop. cbn [m_cur t_stk]. unfold mbind at 1. unfold mod_cur at 1, ret.
    unfold mbind at 1. unfold head, mget at 1. cbn [m_cur t_stk t_set_stk].
    replace (zlen (loc ++ rest) <? zlen loc) with false by (rewrite zlen_app; lia).
    replace (zlen loc <? 0) with false by lia.
    unfold mbind at 1. unfold mod_cur at 1. cbn [m_cur t_stk t_set_stk]. rewrite zskipn_app.
    unfold push, leave, mbind, mget, mod_cur. cbn [m_cur t_stk t_set_stk t_frs t_set_frs].
    destruct fr as [sp ret cal term]. cbn [fr_term fr_ret].
    destruct (term || match frs with [] => true | _ => false end) eqn:F.
    - cbn. unfold mget, lift, assert_. cbn [m_cur t_stk]. rewrite zlen_cons.
      replace (0 <? zlen rest + 1) with true by lia. eexists _, _; split; reflexivity.
    - cbn. eexists _, _; split; reflexivity.
  Qed.

  Lemma znth_rev {X} (l : list X) i : 0 <= i < zlen l -> znth (rev l) i = znth l (zlen l - 1 - i).
  Proof.
    revert i. induction l as [|x l IH]; intros i R; [change (zlen (@nil X)) with 0 in R; lia|].
    rewrite zlen_cons in *. cbn [rev]. destruct (Z.eq_dec i (zlen l)) as [->|N].
    - rewrite znth_app2 by (rewrite zlen_rev; lia). rewrite zlen_rev, Z.sub_diag.
      replace (zlen l + 1 - 1 - zlen l) with 0 by lia. reflexivity.
    - rewrite znth_app1 by (rewrite zlen_rev; lia). rewrite IH by lia.
      replace (zlen l + 1 - 1 - i) with (zlen [x] + (zlen l - 1 - i)) by (change (zlen [x]) with 1; lia).
      change (x :: l) with ([x] ++ l). rewrite znth_app2 by (change (zlen [x]) with 1; lia). f_equal. lia.
  Qed.
  Lemma zupd_rev {X} (l : list X) i v : 0 <= i < zlen l -> zupd (rev l) (zlen l - 1 - i) v = rev (zupd l i v).
  Proof.
    intros R. apply znth_ext; [rewrite zlen_rev, !zlen_zupd, zlen_rev; reflexivity|].
    intros j Hj. rewrite zlen_zupd, zlen_rev in Hj.
    rewrite znth_rev by (rewrite zlen_zupd; lia). rewrite zlen_zupd.
    destruct (Z.eq_dec j (zlen l - 1 - i)) as [->|N].
    - rewrite znth_zupd_same by (rewrite zlen_rev; lia).
      replace (zlen l - 1 - (zlen l - 1 - i)) with i by lia. now rewrite znth_zupd_same.
    - rewrite !znth_zupd_other by lia. now rewrite znth_rev.
  Qed.
  Lemma stk_get_frame (tmps F rest : list aval) j v : znth F j = Some v ->
    stk_get (tmps ++ rev F ++ rest) (zlen rest + j) = Some v.
  Proof.
    intros E. pose proof (znth_some _ _ _ E). pose proof (zlen_nonneg rest). pose proof (zlen_nonneg tmps).
    unfold stk_get. rewrite !zlen_app, zlen_rev.
    replace ((0 <=? zlen rest + j) && (zlen rest + j <? zlen tmps + (zlen F + zlen rest))) with true by lia.
    rewrite znth_app2 by lia. rewrite znth_app1 by (rewrite zlen_rev; lia).
    rewrite znth_rev by lia. rewrite <- E. f_equal. lia.
  Qed.
  Lemma stk_set_frame (F rest : list aval) j v : 0 <= j < zlen F ->
    stk_set (rev F ++ rest) (zlen rest + j) v = rev (zupd F j v) ++ rest.
  Proof.
    intros E. unfold stk_set. rewrite zlen_app, zlen_rev.
    rewrite zupd_app1 by (rewrite zlen_rev; lia). f_equal. rewrite <- zupd_rev by lia. f_equal. lia.
  Qed.
  Lemma st_getv o j tmps F rest fr frs v : at_ins prog a (I1 INS_GETV o) ->
    zlen (tmps ++ rev F ++ rest) <= i32_max -> fr_sp fr + o = zlen rest + j -> znth F j = Some v ->
    cstep (C a (tmps ++ rev F ++ rest) (fr :: frs)) (C (a + 5) (v :: tmps ++ rev F ++ rest) (fr :: frs)).
  Proof.
    intros A L O E. eapply cstep1; [exact A|reflexivity|]. intros s0 Es. core_in s0 Es.
    unfold mbind at 1. unfold mget. cbn [m_cur t_frs]. unfold mbind at 1. unfold lift. rewrite O.
    pose proof (znth_some _ _ _ E). pose proof (zlen_nonneg rest). pose proof (zlen_nonneg tmps).
    rewrite !zlen_app, zlen_rev in L.
    unfold chk32. replace (in_i32 (zlen rest + j)) with true by (unfold in_i32, i32_min, i32_max in *; lia).
    unfold mbind. cbn [m_cur t_stk]. rewrite (stk_get_frame _ _ _ _ _ E). eexists _, _; split; reflexivity.
  Qed.
  Lemma st_setv o j F rest fr frs v : at_ins prog a (I1 INS_SETV o) ->
    zlen (rev F ++ rest) <= i32_max -> fr_sp fr + o = zlen rest + j -> 0 <= j < zlen F ->
    cstep (C a (v :: rev F ++ rest) (fr :: frs)) (C (a + 5) (rev (zupd F j v) ++ rest) (fr :: frs)).
  Proof.
    intros A L O E. eapply cstep1; [exact A|reflexivity|]. intros s0 Es. core_in s0 Es.
    unfold mbind at 1. unfold pop. cbn [m_cur t_stk]. unfold mbind at 1. unfold mod_cur at 1, ret.
    unfold mbind at 1. unfold mget. cbn [m_cur t_frs t_set_stk]. unfold mbind at 1. unfold lift. rewrite O.
    pose proof (zlen_nonneg rest). rewrite !zlen_app, zlen_rev in L.
    unfold chk32. replace (in_i32 (zlen rest + j)) with true by (unfold in_i32, i32_min, i32_max in *; lia).
    destruct (znth_in F j E) as (x & X).
    unfold mbind. cbn [m_cur t_stk t_set_stk]. rewrite (stk_get_frame [] _ _ _ _ X : stk_get (rev F ++ rest) _ = _).
    unfold mod_cur. cbn [m_cur t_stk t_set_stk]. rewrite stk_set_frame by exact E. eexists _, _; split; reflexivity.
  Qed.
  End Frames.
End Steps.
