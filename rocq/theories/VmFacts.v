(** Lemmas about single steps of the machine. *)
From Coq Require Import ZArith List Bool Lia ZifyBool.
From Verif Require Import Base BaseFacts F32 Instr InstrSpec InstrProofs Program VM VmSpec.
Import ListNotations.
Open Scope Z_scope.

Lemma at_ins_split : forall prog a x, at_ins prog a x ->
  4 < zlen (p_code prog) /\ 0 <= a /\ ins_wf x /\
  exists b rest, emit x = Ok b /\ zskipn a (p_code prog) = b ++ rest.
Proof.
  intros prog a x (L & A & W & b & E & F). do 3 (split; [assumption|]).
  exists b, (zskipn (zlen b) (zskipn a (p_code prog))). split; auto.
  rewrite <- F at 2. symmetry. rewrite <- F at 1. 
  rewrite F. rewrite <- F at 1. apply zfirstn_zskipn.
Qed.

Lemma znth_0_zskipn : forall {A} (l : list A) a x r, 0 <= a ->
  zskipn a l = x :: r -> znth l a = Some x.
Proof.
  intros A l a x r L E. replace a with (a + 0) by lia. rewrite <- znth_zskipn by lia.
  rewrite E. reflexivity.
Qed.

Lemma zskipn_more : forall {A} (l : list A) a x r, 0 <= a ->
  zskipn a l = x ++ r -> zskipn (a + zlen x) l = r.
Proof.
  intros A l a x r L E. rewrite Z.add_comm, <- zskipn_zskipn by (auto; apply zlen_nonneg).
  rewrite E. apply zskipn_app.
Qed.

Lemma at_opcode : forall prog a x, at_ins prog a x ->
  znth (p_code prog) a = Some (opcode (ins_op x)).
Proof.
  intros prog a x Hx. destruct (at_ins_split _ _ _ Hx) as (L & A & W & b & rest & E & F).
  assert (exists t, b = opcode (ins_op x) :: t) as (t & ->).
  { destruct x as [i|i o|i o1 o2]; destruct i; try discriminate E;
      cbn in E; match type of E with Ok ?u = Ok b => assert (u = b) by congruence; subst b end;
      eexists; reflexivity. }
  eapply znth_0_zskipn; eauto.
Qed.

Lemma at_operand1 : forall prog a i o, at_ins prog a (I1 i o) ->
  exists r, rd32 (zskipn (a + 1) (p_code prog)) = Some (o, r).
Proof.
  intros prog a i o Hx. destruct (at_ins_split _ _ _ Hx) as (L & A & W & b & rest & E & F).
  destruct W as [W R].
  assert (b = opcode i :: le32 o).
  { destruct i; try discriminate E; cbn in E;
      match type of E with Ok ?u = Ok b => assert (u = b) by congruence; subst b end; reflexivity. }
  subst b. exists rest.
  assert (Q : zskipn (a + zlen [opcode i]) (p_code prog) = le32 o ++ rest)
    by (apply zskipn_more; auto).
  change (zlen [opcode i]) with 1 in Q. rewrite Q, rd32_le32, to_i32_id by auto. reflexivity.
Qed.

Lemma at_operand2 : forall prog a i o1 o2, at_ins prog a (I2 i o1 o2) ->
  (exists r, rd32 (zskipn (a + 1) (p_code prog)) = Some (o1, r)) /\
  (exists r, rd32 (zskipn (a + 5) (p_code prog)) = Some (o2, r)).
Proof.
  intros prog a i o o2 Hx. destruct (at_ins_split _ _ _ Hx) as (L & A & W & b & rest & E & F).
  destruct W as (W & R & R2).
  assert (b = opcode i :: le32 o ++ le32 o2).
  { destruct i; try discriminate E; cbn in E;
      match type of E with Ok ?u = Ok b => assert (u = b) by congruence; subst b end; reflexivity. }
  subst b. 
  assert (Q : zskipn (a + zlen [opcode i]) (p_code prog) = le32 o ++ le32 o2 ++ rest)
    by (apply zskipn_more; auto; rewrite F; cbn; now rewrite <- app_assoc).
  change (zlen [opcode i]) with 1 in Q.
  assert (Q2 : zskipn (a + 1 + zlen (le32 o)) (p_code prog) = le32 o2 ++ rest)
    by (apply zskipn_more; auto; lia).
  rewrite le32_len in Q2. replace (a + 1 + 4) with (a + 5) in Q2 by lia.
  rewrite Q, Q2, !rd32_le32, !to_i32_id by auto. eauto.
Qed.

Section Exec.
  Context {P H : Type}.
  Variable ops : hops P H.
  Variable prog : program_t.
  Notation mst := (mst P H).

  Lemma fetch_at : forall (s : mst) x, at_ins prog (pc s) x ->
    fetch prog s = Ok (opcode (ins_op x), with_cur s (t_set_pc (m_cur s) (pc s + 1))).
  Proof.
    intros s x Hx. pose proof (at_opcode _ _ _ Hx) as E. destruct Hx as (L & _).
    unfold fetch, mbind, lift, code, mget. replace (4 <? zlen (p_code prog)) with true by lia.
    cbn [assert_]. unfold pc in *. rewrite E. reflexivity.
  Qed.

  (** the end of a step *)
  Definition finish_step : M unit :=
    mbind (check_breakpoints prog) (fun _ =>
    mod_cur (fun t : thread P => t_set_cyc t (to_u32 (t_cyc t + 1)))) : @M P H unit.

  Lemma step_at : forall (s : mst) x, at_ins prog (pc s) x ->
    step_imp ops prog s =
    mbind (do_ins ops prog (ins_op x)) (fun _ => finish_step)
          (with_cur s (t_set_pc (m_cur s) (pc s + 1))).
  Proof.
    intros s x Hx. unfold step_imp, mbind at 1. rewrite (fetch_at _ _ Hx).
    rewrite of_opcode_opcode. reflexivity.
  Qed.

  Lemma finish_quiet : forall s : mst, quiet s ->
    finish_step s = Ok (tt, with_cur s (t_set_cyc (m_cur s) (to_u32 (t_cyc (m_cur s) + 1)))).
  Proof.
    intros s Q. unfold finish_step, check_breakpoints, mbind, mod_cur. cbn [m_cur].
    unfold quiet in Q. rewrite Q. reflexivity.
  Qed.

  Lemma operand_at : forall (s : mst) o r, 4 < zlen (p_code prog) -> 0 <= pc s ->
    rd32 (zskipn (pc s) (p_code prog)) = Some (o, r) ->
    operand prog s = Ok (o, with_cur s (t_set_pc (m_cur s) (pc s + 4))).
  Proof.
    intros s o r L A E. unfold operand, mbind, lift, code, mget.
    replace (4 <? zlen (p_code prog)) with true by lia. cbn [assert_].
    unfold pc in *. replace (t_pc (m_cur s) <? 0) with false by lia. rewrite E. reflexivity.
  Qed.

  Lemma operand1_at : forall (s : mst) i o, at_ins prog (pc s) (I1 i o) ->
    operand prog (with_cur s (t_set_pc (m_cur s) (pc s + 1))) =
    Ok (o, with_cur s (t_set_pc (m_cur s) (pc s + 5))).
  Proof.
    intros s i o At. destruct (at_operand1 _ _ _ _ At) as (r0 & Rd). pose proof At as (L & A & _).
    rewrite (operand_at _ o r0); auto; unfold pc in *; cbn [with_cur m_cur t_set_pc t_pc]; [|lia].
    replace (t_pc (m_cur s) + 1 + 4) with (t_pc (m_cur s) + 5) by lia. reflexivity.
  Qed.
  Lemma operand2_at : forall (s : mst) i o1 o2, at_ins prog (pc s) (I2 i o1 o2) ->
    operand prog (with_cur s (t_set_pc (m_cur s) (pc s + 1))) =
    Ok (o1, with_cur s (t_set_pc (m_cur s) (pc s + 5))) /\
    operand prog (with_cur s (t_set_pc (m_cur s) (pc s + 5))) =
    Ok (o2, with_cur s (t_set_pc (m_cur s) (pc s + 9))).
  Proof.
    intros s i o1 o2 At. destruct (at_operand2 _ _ _ _ _ At) as ((r1 & R1) & (r2 & R2)).
    pose proof At as (L & A & _). split.
    - rewrite (operand_at _ o1 r1); auto; unfold pc in *; cbn [with_cur m_cur t_set_pc t_pc]; [|lia].
      replace (t_pc (m_cur s) + 1 + 4) with (t_pc (m_cur s) + 5) by lia. reflexivity.
    - rewrite (operand_at _ o2 r2); auto; unfold pc in *; cbn [with_cur m_cur t_set_pc t_pc]; [|lia].
      replace (t_pc (m_cur s) + 5 + 4) with (t_pc (m_cur s) + 9) by lia. reflexivity.
  Qed.

  (** step of a one-byte instruction, all at once *)
  Lemma step_quiet : forall (s : mst) x u s', at_ins prog (pc s) x -> quiet s ->
    do_ins ops prog (ins_op x) (with_cur s (t_set_pc (m_cur s) (pc s + 1))) = Ok (u, s') ->
    quiet s' ->
    step_imp ops prog s = Ok (tt, with_cur s' (t_set_cyc (m_cur s') (to_u32 (t_cyc (m_cur s') + 1)))).
  Proof.
    intros s x u s' Hx Q E Q'. rewrite (step_at _ _ Hx). unfold mbind at 1. rewrite E.
    now apply finish_quiet.
  Qed.
  Lemma step_stuck : forall (s : mst) x e, at_ins prog (pc s) x ->
    do_ins ops prog (ins_op x) (with_cur s (t_set_pc (m_cur s) (pc s + 1))) = Stuck e ->
    step_imp ops prog s = Stuck e.
  Proof.
    intros s x e Hx E. rewrite (step_at _ _ Hx). unfold mbind at 1. now rewrite E.
  Qed.
End Exec.

(** ** Operators *)

Lemma binary_do : forall i, binary_instr i -> exists f, binop i = Some f /\
  forall P H (ops : hops P H) prog, do_ins ops prog i =
    mbind (pop_v ops) (fun r => mbind (pop_v ops) (fun l => finish_op ops (f (plain l) (plain r)))).
Proof.
  intros i Hi. cbv [binary_instr In] in Hi.
  repeat (destruct Hi as [<-|Hi]; [eexists; split; reflexivity|]). contradiction.
Qed.

Lemma pop_v_eq : forall P H (ops : hops P H) (s : mst P H) p r,
  t_stk (m_cur s) = p :: r ->
  pop_v ops s = match h_view ops (m_heap s) p with
                | Ok w => Ok (w, with_cur s (t_set_stk (m_cur s) r))
                | Err e l => Err e l | Stuck x => Stuck x end.
Proof. intros P H ops s p r E. unfold pop_v, mbind at 1, pop. rewrite E. reflexivity. Qed.

Lemma binary_step : forall i f P H (ops : hops P H) prog s l r rest,
  binary_instr i -> binop i = Some f -> binary_state ops prog s i l r rest ->
  step_imp ops prog s =
  match f l r with
  | Ok (OPush c) =>
      match h_newS ops (m_heap s) c with
      | Ok (h, p) => Ok (tt, after s (pc s + 1) (p :: rest) h)
      | Err e l => Err e l
      | Stuck x => Stuck x
      end
  | Ok (ORaise e) => Ok (tt, failed s (pc s + 1) rest e)
  | Err e l => Err e l
  | Stuck x => Stuck x
  end.
Proof.
  intros i f P H ops prog s l r rest Bi Bf (At & Q & lp & rp & lw & rw & Es & El & Pl & Er & Pr).
  destruct (binary_do i Bi) as (f' & Bf' & D).
  assert (f' = f) by congruence. subst f'.
  rewrite (step_at ops prog s (I0 i) At). cbn [ins_op]. rewrite D.
  unfold mbind at 1. unfold mbind at 1.
  rewrite (pop_v_eq _ _ _ _ rp (lp :: rest)) by exact Es.
  cbn [with_cur m_heap]. rewrite Er.
  unfold mbind at 1. rewrite (pop_v_eq _ _ _ _ lp rest) by reflexivity.
  cbn [with_cur m_heap m_cur m_glob m_world m_pre m_post]. rewrite El.
  rewrite Pl, Pr. unfold finish_op, mbind at 1, lift.
  destruct (f l r) as [[c|e]| |]; try reflexivity.
  - unfold push_s, mbind at 1, new_s. cbn [m_heap with_cur].
    destruct (h_newS ops (m_heap s) c) as [[h p]| |]; try reflexivity.
    unfold set_heap, push, mbind at 1, ret, mbind, mod_cur.
    rewrite finish_quiet by exact Q. reflexivity.
  - unfold raise, mod_cur. rewrite finish_quiet by exact Q. reflexivity.
Qed.

Lemma pushes2_intro : forall i f l r c, binary_instr i -> binop i = Some f ->
  f l r = Ok (OPush c) -> pushes2 i l r c.
Proof.
  intros i f l r c B F E P H ops prog s rest h p St N.
  rewrite (binary_step i f P H ops prog s l r rest B F St), E, N. reflexivity.
Qed.
Lemma raises2_intro : forall i f l r e, binary_instr i -> binop i = Some f ->
  f l r = Ok (ORaise e) -> raises2 i l r e.
Proof.
  intros i f l r e B F E P H ops prog s rest St.
  rewrite (binary_step i f P H ops prog s l r rest B F St), E. reflexivity.
Qed.
Lemma undefined2_intro : forall i f l r x, binary_instr i -> binop i = Some f ->
  f l r = Stuck x -> undefined2 i l r x.
Proof.
  intros i f l r e B F E P H ops prog s rest St.
  rewrite (binary_step i f P H ops prog s l r rest B F St), E. reflexivity.
Qed.

Lemma unary_step : forall i f P H (ops : hops P H) prog s v rest,
  unop i = Some f -> unary_state ops prog s i v rest ->
  step_imp ops prog s =
  match f v with
  | Ok (OPush c) =>
      match h_newS ops (m_heap s) c with
      | Ok (h, p) => Ok (tt, after s (pc s + 1) (p :: rest) h)
      | Err e l => Err e l
      | Stuck x => Stuck x
      end
  | Ok (ORaise e) => Ok (tt, failed s (pc s + 1) rest e)
  | Err e l => Err e l
  | Stuck x => Stuck x
  end.
Proof.
  intros i f P H ops prog s v rest Bf (At & Q & vp & vw & Es & Ev & Pv).
  assert (D : do_ins ops prog i = mbind (pop_v ops) (fun v => finish_op ops (f (plain v)))).
  { destruct i; cbn in Bf; try discriminate Bf; inversion Bf; subst; reflexivity. }
  rewrite (step_at ops prog s (I0 i) At). cbn [ins_op]. rewrite D.
  unfold mbind at 1. unfold mbind at 1.
  rewrite (pop_v_eq _ _ _ _ vp rest) by exact Es.
  cbn [with_cur m_heap]. rewrite Ev.
  rewrite Pv. unfold finish_op, mbind at 1, lift.
  destruct (f v) as [[c|e]| |]; try reflexivity.
  - unfold push_s, mbind at 1, new_s. cbn [m_heap with_cur].
    destruct (h_newS ops (m_heap s) c) as [[h p]| |]; try reflexivity.
    unfold set_heap, push, mbind at 1, ret, mbind, mod_cur.
    rewrite finish_quiet by exact Q. reflexivity.
  - unfold raise, mod_cur. rewrite finish_quiet by exact Q. reflexivity.
Qed.
Lemma pushes1_intro : forall i f v c, unop i = Some f -> f v = Ok (OPush c) -> pushes1 i v c.
Proof.
  intros i f l c F E P H ops prog s rest h p St N.
  rewrite (unary_step i f P H ops prog s l rest F St), E, N. reflexivity.
Qed.
Lemma raises1_intro : forall i f v e, unop i = Some f -> f v = Ok (ORaise e) -> raises1 i v e.
Proof.
  intros i f l e F E P H ops prog s rest St.
  rewrite (unary_step i f P H ops prog s l rest F St), E. reflexivity.
Qed.
Lemma undefined1_intro : forall i f v x, unop i = Some f -> f v = Stuck x -> undefined1 i v x.
Proof.
  intros i f l e F E P H ops prog s rest St.
  rewrite (unary_step i f P H ops prog s l rest F St), E. reflexivity.
Qed.

(** ** Executing instructions symbolically *)
Ltac mcbv := cbv [mbind lift mget get mod_cur set_heap set_glob set_world add_thread ret raise pop push
  deref new_s new_a push_s push_none pop_v head enter leave gc_copy assert_
  with_cur after failed pc stack frames quiet
  t_set_pc t_set_stk t_set_frs t_set_err t_set_fin t_set_hal t_set_cyc t_set_waits t_set_last t_set_bps
  t_pc t_stk t_frs t_err t_fin t_hal t_cyc t_waits t_last t_bps
  m_heap m_glob m_world m_pre m_cur m_post fr_sp fr_ret fr_callee fr_term] in *.
Ltac dstate s :=
  let h := fresh "h" in let g := fresh "g" in let w := fresh "w" in
  let pre := fresh "pre" in let post := fresh "post" in
  let tpc := fresh "tpc" in let stk := fresh "stk" in let frs := fresh "frs" in
  let err := fresh "err" in let fin := fresh "fin" in let hal := fresh "hal" in
  let cyc := fresh "cyc" in let wts := fresh "wts" in let last := fresh "last" in
  let bps := fresh "bps" in
  destruct s as [h g w pre [tpc stk frs err fin hal cyc wts last bps] post].

Lemma finish_quiet' : forall P H prog (h : H) g w pre (t : thread P) post,
  t_bps t = [] -> finish_step prog (Mst h g w pre t post) =
  Ok (tt, Mst h g w pre (t_set_cyc t (to_u32 (t_cyc t + 1))) post).
Proof. intros. rewrite finish_quiet by assumption. reflexivity. Qed.
