(** Arrays, globals, frame variables, calls: C48-C52. *)
From Coq Require Import ZArith List Bool Lia ZifyBool.
From Verif Require Import Base BaseFacts F32 Instr InstrSpec InstrProofs Program VM Gc GcProofs GcSpec
  Host Demo VmSpec VmFacts PropertiesOps.
Import ListNotations.
Open Scope Z_scope.

(** Start of the execution of an instruction without / with operands. *)
Ltac ins0 At :=
  rewrite (step_at _ _ _ _ At); unfold mbind at 1; cbn [ins_op do_ins].
Ltac ins1 At :=
  rewrite (step_at _ _ _ _ At); unfold mbind at 1; cbn [ins_op do_ins];
  unfold mbind at 1; rewrite (operand1_at _ _ _ _ At).

Ltac rw E := rewrite E; cbv beta iota.

(** ** C48 Array reads return the last write *)

(** A store: the array at address [a] has its element [k] replaced by [q] and
    nothing else changes; [q] is the stored value itself if that is an array or
    none, and a fresh copy if it is a scalar.  The only failure is exhaustion of
    the arena by the copy. *)
Theorem C48_store : forall cap fuel policy prog s a l ip k vp rest,
  at_ins prog (pc s) (I0 INS_SETA) -> quiet s -> in_arena (m_heap s) ->
  stack s = Some a :: ip :: vp :: rest ->
  read (m_heap s) a = Some (KA l) ->
  shows (m_heap s) ip = ShScalar (SInt k) -> 0 <= k < zlen l ->
  shows (m_heap s) vp <> ShDangling ->
  step_imp (gc_ops_with cap fuel policy) prog s = Stuck SOom \/
  exists h' q l',
    step_imp (gc_ops_with cap fuel policy) prog s = Ok (tt, after s (pc s + 1) rest h') /\
    read h' a = Some (KA l') /\ zlen l' = zlen l /\ znth l' k = Some q /\
    (forall j, j <> k -> znth l' j = znth l j) /\
    (forall b c, b <> a -> read (m_heap s) b = Some c -> read h' b = Some c) /\
    shows h' q = shows (m_heap s) vp /\
    match shows (m_heap s) vp with
    | ShScalar _ => shows (m_heap s) q = ShDangling
    | _ => q = vp
    end.
Proof.
  intros cap fuel policy prog s a l ip k vp rest At Q W Es Ea Ei K Ev.
  ins0 At.
  assert (Vi : gc_view (m_heap s) ip = Ok (WS (SInt k))).
  { unfold shows, gc_view in *. destruct ip as [b|]; [|discriminate].
    destruct (read (m_heap s) b) as [[]|]; congruence. }
  assert (Va : gc_view (m_heap s) (Some a) = Ok (WA l)) by (cbn [gc_view]; now rewrite Ea).
  assert (Kb : (0 <=? k) && (k <? zlen l) = true) by lia.
  assert (Cases : (exists l0 b, vp = Some b /\ read (m_heap s) b = Some (KA l0)) \/ vp = None \/
                  (exists c b, vp = Some b /\ read (m_heap s) b = Some (KS c))).
  { unfold shows in Ev. destruct vp as [b|]; auto.
    destruct (read (m_heap s) b) as [[]|] eqn:E; eauto 6. congruence. }
  assert (G0 : forall h', read h' a = Some (KA l) -> forall q,
    gc_set h' (Some a) k q = Ok (write h' a (KA (zupd l k q)))).
  { intros h' E q. unfold gc_set. now rewrite E, Kb. }
  assert (Wr : forall (h' : heap) l1, read (write h' a (KA l1)) a = Some (KA l1)).
  { intros. unfold read, write; cbn [g_mem]. destruct a. unfold addr_eqb; cbn. now rewrite eqb_reflx, Z.eqb_refl. }
  assert (Wo : forall (h' : heap) l1 b, b <> a -> read (write h' a (KA l1)) b = read h' b).
  { intros h' l1 [s1 o1] N. unfold read, write; cbn [g_mem fst snd]. now rewrite addr_eqb_neq. }
  assert (Res : forall h1 q (ok : forall b c, read (m_heap s) b = Some c -> read h1 b = Some c),
    shows h1 q = shows (m_heap s) vp ->
    let h' := write h1 a (KA (zupd l k q)) in
    read h' a = Some (KA (zupd l k q)) /\ zlen (zupd l k q) = zlen l /\ znth (zupd l k q) k = Some q /\
    (forall j, j <> k -> znth (zupd l k q) j = znth l j) /\
    (forall b c, b <> a -> read (m_heap s) b = Some c -> read h' b = Some c) /\
    shows h' q = shows (m_heap s) vp).
  { intros h1 q Ok1 Sh h'. split; [apply Wr|]. split; [apply zlen_zupd|].
    split; [now apply znth_zupd_same|]. split; [intros; now apply znth_zupd_other; auto|].
    split; [intros; unfold h'; rewrite Wo; auto|].
    rewrite <- Sh. unfold shows, h'. destruct q as [b|]; auto.
    assert (D : b = a \/ b <> a).
    { destruct (addr_eqb b a) eqn:E; [left; now apply addr_eqb_eq|right]. intros ->.
      destruct a; unfold addr_eqb in E; cbn in E. now rewrite eqb_reflx, Z.eqb_refl in E. }
    destruct D as [->|D].
    - rewrite Wr, (Ok1 _ _ Ea), zlen_zupd. reflexivity.
    - rewrite Wo; auto. }
  dstate s. mcbv. subst stk bps. cbn [h_view gc_ops_with h_set h_newS h_null]. mcbv.
  unfold ptr in *. rw Va. rw Vi.
  rw Kb.
  destruct Cases as [(l0 & b & -> & Eb)|[->|(c & b & -> & Eb)]].
  - right. cbn [gc_view]. rw Eb. rw (G0 _ Ea).
    exists (write h a (KA (zupd l k (Some b)))), (Some b), (zupd l k (Some b)).
    rewrite finish_quiet' by reflexivity.
    split; [reflexivity|].
    destruct (Res h (Some b)) as (R1 & R2 & R3 & R4 & R5 & R6); auto.
    repeat (split; [assumption|]). cbn [shows]. rewrite Eb. reflexivity.
  - right. cbn [gc_view]. rw (G0 _ Ea).
    exists (write h a (KA (zupd l k None))), None, (zupd l k None).
    rewrite finish_quiet' by reflexivity.
    split; [reflexivity|].
    destruct (Res h None) as (R1 & R2 & R3 & R4 & R5 & R6); auto.
    repeat (split; [assumption|]). reflexivity.
  - cbn [gc_view]. rw Eb. cbn [gc_view]. rw Eb. unfold gc_newS, new_cell.
    destruct (alloc cap h (KS c)) as [[h1 n]|] eqn:Al; [|left; reflexivity]. right.
    destruct (alloc_spec _ _ _ _ _ W Al) as (W1 & _ & Fr & Rn & Ot & _).
    assert (Ok1 : forall b0 c0, read h b0 = Some c0 -> read h1 b0 = Some c0).
    { intros b0 c0 E. rewrite Ot; auto. intros ->. congruence. }
    rewrite (G0 h1 (Ok1 _ _ Ea)).
    exists (write h1 a (KA (zupd l k (Some n)))), (Some n), (zupd l k (Some n)).
    rewrite finish_quiet' by reflexivity.
    split; [reflexivity|].
    destruct (Res h1 (Some n)) as (R1 & R2 & R3 & R4 & R5 & R6); auto.
    { cbn [shows]. rewrite Rn, Eb. reflexivity. }
    repeat (split; [assumption|]). cbn [shows]. rewrite Eb, Fr. reflexivity.
Qed.

(** A load pushes the element and changes nothing. *)
Theorem C48_load : forall P H (ops : hops P H) prog s ap l ip k p rest,
  at_ins prog (pc s) (I0 INS_DEREF) -> quiet s ->
  stack s = ap :: ip :: rest ->
  h_view ops (m_heap s) ap = Ok (WA l) ->
  h_view ops (m_heap s) ip = Ok (WS (SInt k)) -> znth l k = Some p ->
  step_imp ops prog s = Ok (tt, after s (pc s + 1) (p :: rest) (m_heap s)).
Proof.
  intros P H ops prog s ap l ip k p rest At Q Es Ea Ei K. ins0 At.
  dstate s. mcbv. subst stk bps. mcbv. rw Ea. rw Ei. rw K.
  rewrite finish_quiet' by reflexivity. reflexivity.
Qed.

Lemma pop_n_app : forall P H (l k : list P) (s : mst P H), t_stk (m_cur s) = l ++ k ->
  pop_n (Z.to_nat (zlen l)) s = Ok (l, with_cur s (t_set_stk (m_cur s) k)).
Proof.
  induction l as [|x l IH]; intros k s E.
  - cbn. unfold ret. destruct s as [? ? ? ? [] ?]. cbn in E. subst. reflexivity.
  - rewrite zlen_cons. replace (Z.to_nat (zlen l + 1)) with (Datatypes.S (Z.to_nat (zlen l))) by (pose proof (zlen_nonneg l); lia).
    cbn [pop_n]. unfold mbind at 1, pop. rewrite E. cbn [app].
    unfold mbind at 1, mod_cur, ret. unfold mbind at 1. rewrite (IH k) by reflexivity. reflexivity.
Qed.

(** An array literal: the values pushed one after the other become, in that
    order, the elements of a new array; nothing else on the heap changes. *)
Theorem C48_literal : forall cap fuel policy prog s vs rest,
  at_ins prog (pc s) (I1 INS_ARY_INIT (zlen vs)) -> quiet s -> in_arena (m_heap s) ->
  vs <> [] -> stack s = rev vs ++ rest ->
  step_imp (gc_ops_with cap fuel policy) prog s = Stuck SOom \/
  exists h' a,
    step_imp (gc_ops_with cap fuel policy) prog s = Ok (tt, after s (pc s + 5) (Some a :: rest) h') /\
    read (m_heap s) a = None /\ read h' a = Some (KA vs) /\
    (forall b, b <> a -> read h' b = read (m_heap s) b).
Proof.
  intros cap fuel policy prog s vs rest At Q W N Es.
  assert (E : step_imp (gc_ops_with cap fuel policy) prog s =
    match alloc cap (m_heap s) (KA vs) with
    | Some (h', a) => Ok (tt, after s (pc s + 5) (Some a :: rest) h')
    | None => Stuck SOom
    end).
  { ins1 At.
    assert (P : 0 <? zlen vs = true).
    { destruct vs; [congruence|]. rewrite zlen_cons. pose proof (zlen_nonneg vs). lia. }
    unfold mbind at 1, lift, assert_. rewrite P. unfold mbind at 1. rewrite <- (zlen_rev vs).
    rewrite (pop_n_app _ _ (rev vs) rest) by exact Es. rewrite rev_involutive.
    unfold mbind at 1, new_a. cbn [h_newA gc_ops_with with_cur m_heap]. unfold gc_newA, new_cell.
    destruct (alloc cap (m_heap s) (KA vs)) as [[h' a]|]; [|reflexivity].
    dstate s. mcbv. subst bps. rewrite finish_quiet' by reflexivity. reflexivity. }
  rewrite E. destruct (alloc cap (m_heap s) (KA vs)) as [[h' a]|] eqn:A; [right|left; reflexivity].
  destruct (alloc_spec _ _ _ _ _ W A) as (_ & _ & F & R & O & _). exists h', a. auto.
Qed.
Print Assumptions C48_literal.

(** Store, then load through an alias: in any state [s2] that has the heap left
    by the store, loading index [j] of the array at [b] yields the stored value
    if it is the same array and index, and what was there before otherwise. *)
Theorem C48_read_after_write : forall cap fuel policy prog s a l ip k vp rest s1 s2 b lb jp j p rest2,
  at_ins prog (pc s) (I0 INS_SETA) -> quiet s -> in_arena (m_heap s) ->
  stack s = Some a :: ip :: vp :: rest ->
  read (m_heap s) a = Some (KA l) ->
  shows (m_heap s) ip = ShScalar (SInt k) -> 0 <= k < zlen l ->
  shows (m_heap s) vp <> ShDangling ->
  step_imp (gc_ops_with cap fuel policy) prog s = Ok (tt, s1) ->
  m_heap s2 = m_heap s1 ->
  at_ins prog (pc s2) (I0 INS_DEREF) -> quiet s2 ->
  stack s2 = Some b :: jp :: rest2 ->
  read (m_heap s) b = Some (KA lb) ->
  shows (m_heap s2) jp = ShScalar (SInt j) -> znth lb j = Some p ->
  exists r, step_imp (gc_ops_with cap fuel policy) prog s2 =
            Ok (tt, after s2 (pc s2 + 1) (r :: rest2) (m_heap s2)) /\
    (b = a -> j = k -> shows (m_heap s2) r = shows (m_heap s) vp /\
                       forall n, shows (m_heap s) vp = ShArray n -> r = vp) /\
    (b <> a \/ j <> k -> r = p).
Proof.
  intros cap fuel policy prog s a l ip k vp rest s1 s2 b lb jp j p rest2
    At Q W Es Ea Ei K Ev St Eh At2 Q2 Es2 Eb Ej Ep.
  destruct (C48_store cap fuel policy prog s a l ip k vp rest At Q W Es Ea Ei K Ev)
    as [X|(h' & q & l' & X & R1 & R2 & R3 & R4 & R5 & R6 & R7)]; [congruence|].
  rewrite St in X. assert (s1 = after s (pc s + 1) rest h') by congruence. subst s1.
  change (m_heap (after s (pc s + 1) rest h')) with h' in Eh.
  assert (Vj : gc_view (m_heap s2) jp = Ok (WS (SInt j))).
  { unfold shows, gc_view in *. destruct jp as [x|]; [|discriminate].
    destruct (read (m_heap s2) x) as [[]|]; congruence. }
  assert (D : b = a \/ b <> a).
  { destruct (addr_eqb b a) eqn:E; [left; now apply addr_eqb_eq|right]. intros ->.
    destruct a; unfold addr_eqb in E; cbn in E. now rewrite eqb_reflx, Z.eqb_refl in E. }
  destruct D as [->|D].
  - assert (lb = l) by congruence. subst lb.
    assert (exists r, znth l' j = Some r) as (r & Er).
    { apply znth_in. apply znth_some in Ep. lia. }
    exists r. split; [|split].
    + eapply C48_load; eauto. cbn [h_view gc_ops_with gc_view]. now rewrite Eh, R1.
    + intros _ ->. assert (r = q) by congruence. subst r. rewrite Eh. split; auto.
      intros n E. rewrite E in R7. exact R7.
    + intros [X1|X1]; [congruence|]. rewrite R4 in Er by auto. congruence.
  - exists p. split; [|split; [congruence|auto]].
    eapply C48_load; eauto. cbn [h_view gc_ops_with gc_view]. rewrite Eh, (R5 b (KA lb)); auto.
Qed.

Example C48_example :
  let s := ops_state [Some (true, 32); Some (true, 64); Some (true, 8)] in
  let s := Mst (Heap (g_head (m_heap s)) (fun x o => if x && (o =? 64) then Some (KS (SInt 1)) else g_mem (m_heap s) x o) true)
               (m_glob s) (m_world s) (m_pre s) (m_cur s) (m_post s) in
  at_ins (ops_prog INS_SETA) (pc s) (I0 INS_SETA) /\ quiet s /\ in_arena (m_heap s) /\
  read (m_heap s) (true, 32) = Some (KA [None; Some (true, 0)]) /\
  shows (m_heap s) (Some (true, 64)) = ShScalar (SInt 1) /\
  match step_imp (gc_ops 5) (ops_prog INS_SETA) s with
  | Ok (_, s') => follow (m_heap s') (Some (true, 32)) [1] = Some (Some (false, 0)) /\
                  shows (m_heap s') (Some (false, 0)) = ShScalar (SStr [97])
  | _ => False
  end.
Proof.
  cbv zeta. split; [exists_at|]. split; [reflexivity|].
  split; [|split; [reflexivity|split; [reflexivity|vm_compute; split; reflexivity]]].
  split; [intros []; cbn; lia|]. intros x o c E. cbn in E. destruct x; cbn in E; [|discriminate].
  repeat match type of E with (if ?b then _ else _) = _ => destruct b eqn:? end;
    try discriminate; injection E as <-; 
    match goal with Q : (o =? ?k) = true |- _ => apply Z.eqb_eq in Q; subst o end;
    split; cbv; discriminate.
Qed.

(** ** C49 Indexing is bounds checked *)

(** The error documented for indexing object [o] with [i] when reading ... *)
Definition read_index_error {P} (o i : view P) : option terr :=
  match o, i with
  | WNone, _ => Some e_bad_array_object
  | WA l, WS (SInt k) => if (0 <=? k) && (k <? zlen l) then None else Some e_bad_array_bounds
  | WS (SStr s), WS (SInt k) => if (0 <=? k) && (k <? zlen s) then None else Some e_bad_array_bounds
  | _, WS (SInt _) => Some e_bad_type_operation
  | _, _ => Some e_bad_array_index
  end.
(** ... and when writing. *)
Definition write_index_error {P} (o i : view P) : option terr :=
  match o, i with
  | WA l, WS (SInt k) => if (0 <=? k) && (k <? zlen l) then None else Some e_bad_array_bounds
  | WA _, _ => Some e_bad_array_index
  | _, _ => Some e_bad_array_object
  end.

Lemma znth_dec : forall A (l : list A) k,
  (if (0 <=? k) && (k <? zlen l) then exists x, znth l k = Some x else znth l k = None).
Proof.
  intros A l k. destruct ((0 <=? k) && (k <? zlen l)) eqn:E.
  - apply znth_in. lia.
  - apply znth_none. lia.
Qed.

(** Reading: the error is raised with both operands popped, nothing pushed and
    the heap unchanged; otherwise the element is pushed, or for a string a new
    integer holding its byte. *)
Theorem C49_read : forall P H (ops : hops P H) prog s op ip o i rest,
  at_ins prog (pc s) (I0 INS_DEREF) -> quiet s ->
  stack s = op :: ip :: rest ->
  h_view ops (m_heap s) op = Ok o -> h_view ops (m_heap s) ip = Ok i ->
  match read_index_error o i with
  | Some e => step_imp ops prog s = Ok (tt, failed s (pc s + 1) rest e)
  | None =>
      (exists l k p, o = WA l /\ i = WS (SInt k) /\ znth l k = Some p /\
         step_imp ops prog s = Ok (tt, after s (pc s + 1) (p :: rest) (m_heap s))) \/
      (exists b k c, o = WS (SStr b) /\ i = WS (SInt k) /\ znth b k = Some c /\
         forall h p, h_newS ops (m_heap s) (SInt c) = Ok (h, p) ->
         step_imp ops prog s = Ok (tt, after s (pc s + 1) (p :: rest) h))
  end.
Proof.
  intros P H ops prog s op ip o i rest At Q Es Eo Ei.
  assert (St : step_imp ops prog s = mbind (do_ins ops prog INS_DEREF) (fun _ => finish_step prog)
     (with_cur s (t_set_pc (m_cur s) (pc s + 1)))) by (apply (step_at ops prog s _ At)).
  rewrite St. clear St.
  destruct o as [|c|l]; [|destruct i as [|[k|f|st|a|n]|li]; destruct c as [z|f'|st'|a'|n'] ..|destruct i as [|[k|f|st|a|n]|li]];
    cbn [read_index_error];
    try (dstate s; mcbv; subst stk bps; cbn [do_ins]; mcbv; rw Eo; try (rw Ei);
         rewrite finish_quiet' by reflexivity; reflexivity).
  - pose proof (znth_dec _ st' k) as D. destruct ((0 <=? k) && (k <? zlen st')).
    + right. destruct D as (c & D). exists st', k, c. do 3 (split; auto).
      intros h0 p N. dstate s; mcbv; subst stk bps; cbn [do_ins]; mcbv; rw Eo; rw Ei; rw D; rw N.
      rewrite finish_quiet' by reflexivity; reflexivity.
    + dstate s; mcbv; subst stk bps; cbn [do_ins]; mcbv; rw Eo; rw Ei; rw D.
      rewrite finish_quiet' by reflexivity; reflexivity.
  - pose proof (znth_dec _ l k) as D. destruct ((0 <=? k) && (k <? zlen l)).
    + left. destruct D as (c & D). exists l, k, c. do 3 (split; auto).
      dstate s; mcbv; subst stk bps; cbn [do_ins]; mcbv; rw Eo; rw Ei; rw D.
      rewrite finish_quiet' by reflexivity; reflexivity.
    + dstate s; mcbv; subst stk bps; cbn [do_ins]; mcbv; rw Eo; rw Ei; rw D.
      rewrite finish_quiet' by reflexivity; reflexivity.
Qed.

(** Writing out of bounds, or to something that is not an array. *)
Theorem C49_write : forall P H (ops : hops P H) prog s op ip vp o i rest e,
  at_ins prog (pc s) (I0 INS_SETA) -> quiet s ->
  stack s = op :: ip :: vp :: rest ->
  h_view ops (m_heap s) op = Ok o -> h_view ops (m_heap s) ip = Ok i ->
  write_index_error o i = Some e ->
  step_imp ops prog s = Ok (tt, failed s (pc s + 1) rest e).
Proof.
  intros P H ops prog s op ip vp o i rest e At Q Es Eo Ei Er. ins0 At.
  destruct o as [|c|l]; [| |destruct i as [|[k|f|st|a|n]|li]]; cbn [write_index_error] in Er;
    try destruct ((0 <=? k) && (k <? zlen l)) eqn:D; try discriminate Er;
    (match type of Er with Some ?x = Some e => assert (x = e) by congruence; subst e end);
    dstate s; mcbv; subst stk bps; mcbv; rw Eo; try (rw Ei); try (rw D);
         rewrite finish_quiet' by reflexivity; reflexivity.
Qed.

Example C49_example :
  let s := ops_state [Some (true, 8); Some (true, 0); None] in
  at_ins (ops_prog INS_DEREF) (pc s) (I0 INS_DEREF) /\ quiet s /\
  h_view (gc_ops 5) (m_heap s) (Some (true, 8)) = Ok (WS (SStr [97])) /\
  @read_index_error ptr (WS (SStr [97])) (WS (SInt 7)) = Some e_bad_array_bounds.
Proof. cbv zeta. split; [exists_at|]. repeat split; reflexivity. Qed.

(** ** C50 Globals *)

(** [after] with new globals *)
Definition after_glob {P H} (s : mst P H) (pc' : Z) (stk' : list P) (g' : list P) : mst P H :=
  let s' := after s pc' stk' (m_heap s) in
  Mst (m_heap s') g' (m_world s') (m_pre s') (m_cur s') (m_post s').

Theorem C50_get : forall P H (ops : hops P H) prog s o,
  at_ins prog (pc s) (I1 INS_GETG o) -> quiet s ->
  step_imp ops prog s = Ok (tt,
    match znth (m_glob s) o with
    | Some p => after s (pc s + 5) (p :: stack s) (m_heap s)
    | None => failed s (pc s + 5) (stack s) e_bad_get_global
    end).
Proof.
  intros P H ops prog s o At Q. ins1 At. dstate s. mcbv. subst bps.
  destruct (znth g o); rewrite finish_quiet' by reflexivity; reflexivity.
Qed.

Theorem C50_set : forall P H (ops : hops P H) prog s o v rest,
  at_ins prog (pc s) (I1 INS_SETG o) -> quiet s -> stack s = v :: rest ->
  (0 <= o < zlen (m_glob s) -> exists g',
     step_imp ops prog s = Ok (tt, after_glob s (pc s + 5) rest g') /\
     zlen g' = zlen (m_glob s) /\ znth g' o = Some v /\
     forall j, j <> o -> znth g' j = znth (m_glob s) j) /\
  (~ 0 <= o < zlen (m_glob s) ->
     step_imp ops prog s = Ok (tt, failed s (pc s + 5) (stack s) e_bad_set_global)).
Proof.
  intros P H ops prog s o v rest At Q Es. split; intros R.
  - exists (zupd (m_glob s) o v). split.
    + ins1 At. destruct (znth_in _ _ R) as (x & E).
      dstate s. unfold after_glob. mcbv. subst bps stk. rewrite E. mcbv.
      rewrite finish_quiet' by reflexivity; reflexivity.
    + split; [apply zlen_zupd|]. split; [now apply znth_zupd_same|].
      intros; now apply znth_zupd_other; auto.
  - ins1 At. apply znth_none in R. dstate s. mcbv. subst bps stk. rewrite R. mcbv.
    rewrite finish_quiet' by reflexivity; reflexivity.
Qed.

(** ** C51 Frame variables *)

(** The slot a variable with offset [o] denotes: counted from the bottom of the
    stack, [o] above the stack pointer saved in the current frame. *)
Definition slot {P} (stk : list P) (f : frame) (o : Z) : option P := znth (rev stk) (fr_sp f + o).

Lemma znth_rev : forall A (l : list A) i, 0 <= i < zlen l ->
  znth (rev l) i = znth l (zlen l - 1 - i).
Proof.
  intros A l. induction l as [|x l IH]; intros i R; [unfold zlen in R; cbn in R; lia|].
  cbn [rev]. rewrite zlen_cons in *. destruct (Z.eq_dec i (zlen l)) as [->|N].
  - rewrite znth_app2 by (rewrite zlen_rev; lia). rewrite zlen_rev, Z.sub_diag.
    replace (zlen l + 1 - 1 - zlen l) with 0 by lia. reflexivity.
  - rewrite znth_app1 by (rewrite zlen_rev; lia). rewrite IH by lia.
    cbn [znth]. replace (zlen l + 1 - 1 - i =? 0) with false by lia. f_equal. lia.
Qed.
Lemma stk_get_rev : forall A (l : list A) i, stk_get l i = znth (rev l) i.
Proof.
  intros A l i. unfold stk_get. destruct ((0 <=? i) && (i <? zlen l)) eqn:E.
  - symmetry. apply znth_rev. lia.
  - symmetry. apply znth_none. rewrite zlen_rev. lia.
Qed.
Lemma stk_set_rev : forall A (l : list A) i v, 0 <= i < zlen l ->
  rev (stk_set l i v) = zupd (rev l) i v.
Proof.
  intros A l i v R. unfold stk_set. apply znth_ext.
  - now rewrite zlen_zupd, !zlen_rev, zlen_zupd.
  - intros j Rj. rewrite zlen_rev, zlen_zupd in Rj. rewrite znth_rev by (rewrite zlen_zupd; lia).
    rewrite zlen_zupd. destruct (Z.eq_dec j i) as [->|N].
    + rewrite !znth_zupd_same by (rewrite ?zlen_rev; lia). reflexivity.
    + rewrite !znth_zupd_other by lia. symmetry. apply znth_rev. lia.
Qed.

Theorem C51_get : forall P H (ops : hops P H) prog s o f r,
  at_ins prog (pc s) (I1 INS_GETV o) -> quiet s -> frames s = f :: r ->
  - 2 ^ 31 <= fr_sp f + o < 2 ^ 31 ->
  step_imp ops prog s = Ok (tt,
    match slot (stack s) f o with
    | Some p => after s (pc s + 5) (p :: stack s) (m_heap s)
    | None => failed s (pc s + 5) (h_null ops :: stack s) e_bad_getv
    end).
Proof.
  intros P H ops prog s o f r At Q Ef R. ins1 At. unfold slot. rewrite <- stk_get_rev.
  assert (C : chk32 (fr_sp f + o) = Ok (fr_sp f + o))
    by (unfold chk32; rewrite (proj2 (in_i32_iff _)) by lia; reflexivity).
  dstate s. destruct f as [sp rt ce tm]. mcbv. subst frs bps. rw C.
  destruct (stk_get stk (sp + o)); rewrite finish_quiet' by reflexivity; reflexivity.
Qed.

Theorem C51_set : forall P H (ops : hops P H) prog s o f r v rest,
  at_ins prog (pc s) (I1 INS_SETV o) -> quiet s -> frames s = f :: r ->
  stack s = v :: rest -> - 2 ^ 31 <= fr_sp f + o < 2 ^ 31 ->
  match slot rest f o with
  | Some _ => exists stk',
      step_imp ops prog s = Ok (tt, after s (pc s + 5) stk' (m_heap s)) /\
      zlen stk' = zlen rest /\ slot stk' f o = Some v /\
      forall o', o' <> o -> slot stk' f o' = slot rest f o'
  | None => step_imp ops prog s = Ok (tt, failed s (pc s + 5) rest e_bad_setv)
  end.
Proof.
  intros P H ops prog s o f r v rest At Q Ef Es R. unfold slot.
  assert (C : chk32 (fr_sp f + o) = Ok (fr_sp f + o))
    by (unfold chk32; rewrite (proj2 (in_i32_iff _)) by lia; reflexivity).
  destruct (znth (rev rest) (fr_sp f + o)) eqn:E; rewrite <- stk_get_rev in E.
  - exists (stk_set rest (fr_sp f + o) v).
    assert (B : 0 <= fr_sp f + o < zlen rest).
    { rewrite stk_get_rev in E. apply znth_some in E. rewrite zlen_rev in E. lia. }
    split.
    + ins1 At. dstate s. destruct f as [sp rt ce tm]. mcbv. subst frs bps stk. rw C. mcbv. rw E.
      rewrite finish_quiet' by reflexivity; reflexivity.
    + split; [apply zlen_zupd|]. rewrite stk_set_rev by auto.
      split; [apply znth_zupd_same; now rewrite zlen_rev|].
      intros; apply znth_zupd_other; lia.
  - ins1 At. dstate s. destruct f as [sp rt ce tm]. mcbv. subst frs bps stk. rw C. mcbv. rw E.
      rewrite finish_quiet' by reflexivity; reflexivity.
Qed.

(** ** C52 Call and return *)

(** [after] with new frames *)
Definition after_frs {P H} (s : mst P H) (pc' : Z) (stk' : list P) (frs' : list frame) : mst P H :=
  let s' := after s pc' stk' (m_heap s) in with_cur s' (t_set_frs (m_cur s') frs').

(** A call pushes a frame that remembers the address behind the call and the
    height of the stack, and goes to the callee; the stack is unchanged. *)
Theorem C52_call : forall P H (ops : hops P H) prog s nargs callee,
  at_ins prog (pc s) (I2 INS_CALL nargs callee) -> quiet s ->
  step_imp ops prog s = Ok (tt,
    after_frs s callee (stack s) (Frame (zlen (stack s)) (pc s + 9) callee false :: frames s)).
Proof.
  intros P H ops prog s nargs callee At Q.
  rewrite (step_at _ _ _ _ At); unfold mbind at 1; cbn [ins_op do_ins].
  destruct (operand2_at _ _ _ _ _ At) as (O1 & O2).
  unfold mbind at 1. rewrite O1. unfold mbind at 1. rewrite O2.
  dstate s. unfold after_frs. mcbv. subst bps. rewrite finish_quiet' by reflexivity; reflexivity.
Qed.

(** From a call to the matching return: when the callee comes back to its frame
    with a result on top of its [n] locals and arguments, [RET n] goes back
    behind the call, and the caller finds its frame, its stack below the
    arguments and the result on top. *)
Theorem C52_call_return : forall P H (ops : hops P H) prog s nargs callee s1 s2 n v locals args rest,
  at_ins prog (pc s) (I2 INS_CALL nargs callee) -> quiet s ->
  stack s = args ++ rest -> frames s <> [] ->
  step_imp ops prog s = Ok (tt, s1) ->
  frames s2 = frames s1 -> quiet s2 -> t_fin (m_cur s2) = false ->
  at_ins prog (pc s2) (I1 INS_RET n) ->
  stack s2 = v :: locals ++ args ++ rest -> n = zlen locals + zlen args ->
  step_imp ops prog s2 = Ok (tt, after_frs s2 (pc s + 9) (v :: rest) (frames s)).
Proof.
  intros P H ops prog s nargs callee s1 s2 n v locals args rest At Q Es Nf St Ef2 Q2 Fin At2 Es2 En.
  rewrite (C52_call _ _ ops prog s nargs callee At Q) in St.
  match type of St with Ok (tt, ?x) = Ok (tt, s1) => assert (x = s1) by congruence end.
  subst s1. clear St.
  assert (Fr : frames s2 = Frame (zlen (stack s)) (pc s + 9) callee false :: frames s) by exact Ef2.
  clear Ef2. ins1 At2.
  assert (L : (zlen (locals ++ args ++ rest) <? n) = false).
  { rewrite !zlen_app. pose proof (zlen_nonneg rest). lia. }
  assert (L2 : (n <? 0) = false).
  { pose proof (zlen_nonneg locals). pose proof (zlen_nonneg args). lia. }
  assert (Sk : zskipn n (locals ++ args ++ rest) = rest).
  { subst n. rewrite app_assoc, <- zlen_app. apply zskipn_app. }
  destruct (frames s) as [|f0 fs] eqn:Ef; [congruence|]. clear Nf.
  dstate s2. unfold after_frs. mcbv. subst frs bps stk fin. rw L. rw L2. rw Sk. cbn [orb].
  rewrite finish_quiet' by reflexivity. reflexivity.
Qed.

(** A return that finds fewer values than it should drop. *)
Theorem C52_return_underflow : forall P H (ops : hops P H) prog s n v rest,
  at_ins prog (pc s) (I1 INS_RET n) -> quiet s -> stack s = v :: rest -> zlen rest < n ->
  step_imp ops prog s = Ok (tt, failed s (pc s + 5) rest e_stack_underflow).
Proof.
  intros P H ops prog s n v rest At Q Es L. ins1 At. assert (L' : (zlen rest <? n) = true) by lia.
  dstate s. mcbv. subst stk bps. mcbv. rewrite L'. rewrite finish_quiet' by reflexivity. reflexivity.
Qed.

(** The return of the outermost frame finishes the thread with the value on top
    of its stack. *)
Theorem C52_return_finishes : forall P H (ops : hops P H) prog s n v rest f,
  at_ins prog (pc s) (I1 INS_RET n) -> quiet s -> stack s = v :: rest -> 0 <= n <= zlen rest ->
  frames s = [f] ->
  exists s', step_imp ops prog s = Ok (tt, s') /\
    t_fin (m_cur s') = true /\ t_err (m_cur s') = t_err (m_cur s) /\
    return_value ops (m_cur s') = Ok v /\ stack s' = v :: zskipn n rest /\
    frames s' = [] /\ m_heap s' = m_heap s /\ m_glob s' = m_glob s.
Proof.
  intros P H ops prog s n v rest f At Q Es L Ef. ins1 At.
  assert (L1 : (zlen rest <? n) = false) by lia. assert (L2 : (n <? 0) = false) by lia.
  assert (L3 : (0 <? zlen (v :: zskipn n rest)) = true).
  { rewrite zlen_cons. pose proof (zlen_nonneg (zskipn n rest)). lia. }
  dstate s. mcbv. subst frs stk bps. mcbv. eexists. split.
  - rw L1. rw L2. rw orb_true_r. rw L3.
    rewrite finish_quiet' by reflexivity. reflexivity.
  - repeat split; reflexivity.
Qed.

(** A state of the demonstration program meets the hypotheses of
    C52_return_finishes and of C51. *)
Definition call_prog : program_t :=
  Prog [] [] [] (asm [I2 INS_CALL 1 14; I1 INS_RET 0; I1 INS_GETV (-1); I1 INS_RET 1]) [] [].
Definition call_state : mst ptr heap := ops_state [Some (true, 0); Some (true, 8)].
Example C52_example :
  at_ins call_prog (pc call_state) (I2 INS_CALL 1 14) /\ quiet call_state /\
  exists s1 s2, step_imp (gc_ops 5) call_prog call_state = Ok (tt, s1) /\
    step_imp (gc_ops 5) call_prog s1 = Ok (tt, s2) /\
    frames s2 = frames s1 /\ quiet s2 /\ t_fin (m_cur s2) = false /\
    at_ins call_prog (pc s2) (I1 INS_RET 1) /\
    stack s2 = [Some (true, 0); Some (true, 0); Some (true, 8)].
Proof.
  split; [exists_at|]. split; [reflexivity|].
  do 2 eexists. split; [vm_compute; reflexivity|]. split; [vm_compute; reflexivity|].
  split; [reflexivity|]. split; [reflexivity|]. split; [reflexivity|]. split; [exists_at|].
  reflexivity.
Qed.

Print Assumptions C48_store.
Print Assumptions C48_load.
Print Assumptions C48_read_after_write.
Print Assumptions C49_read.
Print Assumptions C49_write.
Print Assumptions C50_get.
Print Assumptions C50_set.
Print Assumptions C51_get.
Print Assumptions C51_set.
Print Assumptions C52_call.
Print Assumptions C52_call_return.
Print Assumptions C52_return_underflow.
Print Assumptions C52_return_finishes.
