(** Properties C57 - C63: the garbage collector. *)
From Coq Require Import ZArith List Bool Lia ZifyBool.
From Verif Require Import Base BaseFacts Program VM Gc AbsHeap GcProofs GcSpec GcFacts Refine Host Demo HostProofs.
Import ListNotations.
Open Scope Z_scope.

(** ** C57: every place shows the same value before and after a collection, and
    two places hold the same array after it exactly when they did before. *)
Theorem C57_collection_preserves : forall cap fuel h rs h' rs',
  safe_roots h rs ->
  collect cap fuel h rs = Ok (h', rs') ->
  same_graph h rs h' rs'.
Proof.
  intros cap fuel h rs h' rs' S E.
  destruct (safe_abstract _ _ S) as (A & B & vss & HH & F).
  destruct (collect_spec _ _ _ _ _ _ _ _ _ HH F E) as (_ & B' & H' & F' & _).
  eapply HR_same_graph; eauto.
Qed.
Print Assumptions C57_collection_preserves.

(** Closed sets of pointers make checking [safe_roots] on examples easy. *)
Definition ok_ptr (h : heap) (L : list ptr) (p : ptr) : Prop :=
  match p with
  | None => True
  | Some a => match read h a with
              | None => False
              | Some (KS (SStr s)) => ~ In 0 s
              | Some (KS _) => True
              | Some (KA l) => incl l L
              end
  end.
Lemma closed_safe : forall h rs L, in_arena h ->
  Forall (fun r => incl r L) rs -> Forall (ok_ptr h L) L -> safe_roots h rs.
Proof.
  intros h rs L W R C. split; auto. rewrite Forall_forall in *.
  assert (Fo : forall path p q, In p L -> follow h p path = Some q -> In q L).
  { induction path as [|i path IH]; intros p q I E; cbn [follow] in E; [congruence|].
    destruct p as [a|]; [|discriminate]. pose proof (C _ I) as K. simpl in K.
    destruct (read h a) as [[s|l]|]; try discriminate.
    destruct (znth l i) as [x|] eqn:Z; [|discriminate].
    eapply IH; [|exact E]. apply K. eapply znth_In; eauto. }
  intros [[i j] path] p E. simpl in E.
  destruct (znth rs i) as [r|] eqn:Ei; [|discriminate].
  destruct (znth r j) as [x|] eqn:Ej; [|discriminate].
  apply znth_In in Ei. apply znth_In in Ej.
  assert (I : In p L) by (eapply Fo; [|exact E]; apply (R _ Ei); auto).
  pose proof (C _ I) as K. destruct p as [a|]; simpl in *.
  - destruct (read h a) as [[[]|]|]; try contradiction; split; try discriminate; auto.
    intros t [= ->]. exact K.
  - split; [discriminate|intros ? [=]].
Qed.

(** A heap with an old array of an old scalar, and a new array that refers to
    it twice, next to a new string. *)
Definition ex_heap : heap := Heap
  (fun s => if s then 32 else 43)
  (fun s o =>
     if s then if o =? 0 then Some (KS (SInt 7))
               else if o =? 8 then Some (KA [Some (true, 0); None]) else None
     else if o =? 0 then Some (KS (SStr [104; 105]))
          else if o =? 11 then Some (KA [Some (true, 8); Some (false, 0); Some (true, 8)])
          else None)
  true.
Definition ex_roots : list (list ptr) := [[Some (false, 11); None]; [Some (true, 8)]].

Lemma ex_safe : safe_roots ex_heap ex_roots.
Proof.
  apply closed_safe with (L := [Some (false, 11); None; Some (true, 8); Some (true, 0); Some (false, 0)]).
  - split; [intros []; simpl; lia|]. intros s o c E. simpl in E.
    destruct s, (o =? 0) eqn:Q0; try (destruct (o =? 8) eqn:Q8); try (destruct (o =? 11) eqn:Q11);
      try discriminate; injection E as <-;
      match goal with Q : (o =? ?k) = true |- _ => apply Z.eqb_eq in Q; subst o end;
      split; cbv; discriminate.
  - repeat first [apply Forall_nil | apply Forall_cons]; intros x; simpl; tauto.
  - repeat first [apply Forall_nil | apply Forall_cons]; cbv [ok_ptr read ex_heap g_mem fst snd Z.eqb Pos.eqb];
      try exact I; try (intros x; simpl; tauto).
    simpl; intuition discriminate.
Qed.

(** The example meets the hypotheses of C57, its collection completes, and the
    array seen through two places is moved once. *)
Example C57_example :
  safe_roots ex_heap ex_roots /\
  exists h' rs', collect 1000 5 ex_heap ex_roots = Ok (h', rs') /\
     at_place h' rs' (0, 0, [0]) = at_place h' rs' (1, 0, []) /\
     option_map (shows h') (at_place h' rs' (1, 0, [0])) = Some (ShScalar (SInt 7)) /\
     option_map (shows h') (at_place h' rs' (0, 0, [1])) = Some (ShScalar (SStr [104; 105])).
Proof.
  split; [apply ex_safe|].
  destruct (collect 1000 5 ex_heap ex_roots) as [[h' rs']|e l|st] eqn:E; vm_compute in E; try discriminate.
  exists h', rs'. split; auto.
  match type of E with Ok (?x, ?y) = Ok (?u, ?w) =>
    assert (Q1 : x = u) by congruence; assert (Q2 : y = w) by congruence end.
  subst h' rs'. clear E. repeat split; vm_compute; reflexivity.
Qed.

Lemma bytes_of_size : forall c, bytes_of c = cell_size c.
Proof. intros [[]|l]; cbn [bytes_of cell_size]; lia. Qed.

(** ** C58: after a collection no reachable pointer dangles: it points to a value
    inside the used part of the surviving arena, and the other arena is empty;
    so the next collection may run. *)
Theorem C58_no_dangling : forall cap fuel h rs h' rs',
  safe_roots h rs ->
  collect cap fuel h rs = Ok (h', rs') ->
  safe_roots h' rs' /\ g_head h' (sp_to h') = 0 /\
  forall x a, at_place h' rs' x = Some (Some a) ->
    fst a = sp_from h' /\
    exists c, read h' a = Some c /\ 0 <= snd a /\ snd a + bytes_of c <= g_head h' (sp_from h').
Proof.
  intros cap fuel h rs h' rs' S E.
  destruct (safe_abstract _ _ S) as (A & B & vss & HH & F).
  destruct (collect_spec _ _ _ _ _ _ _ _ _ HH F E) as (_ & B' & H' & F' & _ & Hd).
  pose proof (HR_safe _ _ _ _ _ H' F') as S'. split; auto. split; auto.
  intros x [s o] X. destruct S' as [[H0 W] S']. destruct (S' _ _ X) as [ND _]. simpl in ND.
  destruct (read h' (s, o)) as [c|] eqn:R; [|congruence].
  unfold read in R. simpl in R. pose proof (W _ _ _ R) as [L U].
  assert (Q : s = sp_from h').
  { destruct (bool_dec s (sp_to h')) as [->|N].
    - rewrite Hd in U. pose proof (cell_size_pos c). lia.
    - unfold sp_from, sp_to in *. destruct s, (g_flip h'); simpl in *; congruence. }
  split; [exact Q|]. exists c. simpl. subst s. rewrite bytes_of_size. auto.
Qed.
Print Assumptions C58_no_dangling.

(** In every state a host can reach, whatever it runs and whenever collections
    happen, no pointer held by a global or a stack dangles: the hypothesis of
    C57 and C58 always holds. *)
Theorem C58_reachable_states_safe : forall prog fuel l n w xs v,
  prog_nonul prog -> Forall op_nonul (map snd l) ->
  host_gc prog fuel l (vm_start n w) = Ok (xs, v) ->
  safe_roots (vm_heap v) (vm_roots v).
Proof.
  intros prog fuel l n w xs v PO ON E.
  pose proof (ref_host_run prog fuel l _ _ _ PO ON (VR_start n w)) as R. rewrite E in R.
  destruct (abs_run _ _ _ _) as [[ys a]|? ?|?]; simpl in R; try contradiction.
  destruct R as [_ [B V]]. eapply HR_safe; [apply V|]. apply VR_roots. exact V.
Qed.
Print Assumptions C58_reachable_states_safe.

(** No access through a dangling pointer ever happens. *)
Theorem C58_no_dangling_access : forall prog fuel l n w,
  prog_nonul prog -> Forall op_nonul (map snd l) ->
  host_gc prog fuel l (vm_start n w) <> Stuck SDangling.
Proof.
  intros prog fuel l n w PO ON E.
  pose proof (ref_host_run prog fuel l _ _ _ PO ON (VR_start n w)) as R. rewrite E in R.
  destruct (abs_run _ _ _ _); exact R.
Qed.
Print Assumptions C58_no_dangling_access.

(** ** C59: two runs of the same history of API calls, under any two sequences of
    arena sizes and collection policies, agree: unless one of them exhausts
    memory (or a bound), they end the same way, the host sees the same results
    and the two vms hold the same output, the same control state and the same
    values. *)
Theorem C59_collection_invisible : forall prog fuel l1 l2 n w,
  prog_nonul prog -> Forall op_nonul (map snd l1) -> map snd l1 = map snd l2 ->
  let r1 := host_gc prog fuel l1 (vm_start n w) in
  let r2 := host_gc prog fuel l2 (vm_start n w) in
  exhausted r1 \/ exhausted r2 \/
  match r1, r2 with
  | Ok (xs1, v1), Ok (xs2, v2) => xs1 = xs2 /\ same_vm v1 v2
  | Err e l, Err e' l' => e = e' /\ l = l'
  | Stuck x, Stuck y => x = y
  | _, _ => False
  end.
Proof.
  intros prog fuel l1 l2 n w PO ON Q r1 r2.
  pose proof (ref_host_run prog fuel l1 _ _ _ PO ON (VR_start n w)) as R1.
  rewrite Q in ON.
  pose proof (ref_host_run prog fuel l2 _ _ _ PO ON (VR_start n w)) as R2.
  rewrite Q in R1. fold r1 in R1. fold r2 in R2. clearbody r1 r2.
  destruct (abs_run _ _ _ _) as [[ys a]|e le|st];
    destruct r1 as [[xs1 v1]|e1 l1'|s1]; simpl in R1; try contradiction;
    try (destruct s1; try contradiction; unfold exhausted; auto; fail);
    destruct r2 as [[xs2 v2]|e2 l2'|s2]; simpl in R2; try contradiction;
    try (destruct s2; try contradiction; unfold exhausted; auto; fail).
  - right; right. destruct R1 as [E1 [B1 V1]], R2 as [E2 [B2 V2]]. simpl in *.
    split; [congruence|]. eapply VR_same; eauto.
  - right; right. destruct R1, R2. split; congruence.
  - destruct s1; try contradiction; try (unfold exhausted; auto; fail);
      destruct s2; try contradiction; try (unfold exhausted; auto 6; fail);
      right; right; congruence.
Qed.
Print Assumptions C59_collection_invisible.

(** The same calls collecting before every instruction and never: both runs
    complete, and their heaps are different. *)
Example C59_example :
  prog_nonul demo_prog /\ Forall op_nonul demo_ops /\
  match host_gc demo_prog 3 (map (pair cfg_always) demo_ops) (vm_start 0 world0),
        host_gc demo_prog 3 (map (pair cfg_never) demo_ops) (vm_start 0 world0) with
  | Ok (_, v1), Ok (_, v2) =>
      w_out (vm_world v1) = [104; 105; 10] /\
      g_head (vm_heap v1) true <> g_head (vm_heap v2) true
  | _, _ => False
  end.
Proof.
  split; [|split].
  - repeat constructor; vm_compute; intuition discriminate.
  - repeat constructor; vm_compute; try constructor.
  - vm_compute. split; [reflexivity|discriminate].
Qed.

(** ** C60: if no reachable array contains itself, a collection ends: beyond some
    depth the recursion bound no longer matters, and with enough room in the
    destination it completes. *)
Theorem C60_acyclic_collection_ends : forall h rs,
  safe_roots h rs -> ~ cyclic h rs ->
  (exists depth, forall fuel cap, (depth <= fuel)%nat ->
     (exists r, collect cap fuel h rs = Ok r) \/ collect cap fuel h rs = Stuck SOomGc) /\
  (exists depth, forall fuel, (depth <= fuel)%nat ->
     exists room r, forall cap, room <= cap -> collect cap fuel h rs = Ok r).
Proof.
  intros h rs SA NC.
  destruct (safe_abstract _ _ SA) as (A & B & vss & HH & F).
  pose proof (acyclic_depth _ _ _ _ _ HH F NC) as D.
  set (d := S (List.length A)) in *.
  assert (DM : forall m, (d <= m)%nat -> Forall (Forall (adepth m A)) vss).
  { intros m L. eapply Forall_impl; [|exact D]. intros r. apply Forall_impl.
    intros v. apply adepth_le. exact L. }
  split.
  - exists (S d). intros fuel cap L. destruct fuel as [|m]; [lia|].
    pose proof (trace_roots_nodiv A cap m rs h [] B vss (HR_GI _ _ _ HH) F (DM m ltac:(lia))) as N.
    pose proof (collect_safe A cap (S m) h B rs vss HH F) as SF.
    unfold collect in *. destruct (trace_roots cap (S m) h [] rs) as [[[h1 f1] rs1]|e l|st];
      simpl in *; try contradiction; eauto.
    destruct st; try contradiction; eauto; try (exfalso; apply N; reflexivity).
  - exists (S d). intros fuel L. destruct fuel as [|m]; [lia|].
    destruct (trace_roots_total A m rs h [] B vss (HR_GI _ _ _ HH) F (DM m ltac:(lia)))
      as ([[h1 f1] rs1] & c0 & E).
    exists c0, (flip h1, rs1). intros cap Lc. unfold collect. rewrite E by auto. reflexivity.
Qed.
Print Assumptions C60_acyclic_collection_ends.

(** ** C61 (finding): if some reachable array contains itself, a collection does
    not complete, whatever the bound on the recursion and the arena size. *)
Theorem C61_cyclic_collection_never_completes : forall h rs cap fuel r,
  safe_roots h rs -> cyclic h rs -> collect cap fuel h rs <> Ok r.
Proof.
  intros h rs cap fuel [h' rs'] S C E.
  destruct (safe_abstract _ _ S) as (A & B & vss & HH & F).
  destruct (collect_spec _ _ _ _ _ _ _ _ _ HH F E) as (D & _).
  eapply depth_acyclic; eauto.
Qed.
Print Assumptions C61_cyclic_collection_never_completes.

(** The script [var a = new_array(1)  a[0] = a] builds such a heap. *)
Definition cyc_heap : heap := Heap
  (fun s => if s then 16 else 0)
  (fun s o => if s then if o =? 0 then Some (KA [Some (true, 0)]) else None else None)
  false.
Example C61_example : safe_roots cyc_heap [[Some (true, 0)]] /\ cyclic cyc_heap [[Some (true, 0)]] /\
  forall fuel, collect arena_size fuel cyc_heap [[Some (true, 0)]] = Stuck SDiverge.
Proof.
  split; [|split].
  - apply closed_safe with (L := [Some (true, 0)]).
    + split; [intros []; simpl; lia|]. intros [] o c E; simpl in E; try discriminate.
      destruct (o =? 0) eqn:Q; [|discriminate]. injection E as <-.
      apply Z.eqb_eq in Q; subst o. split; cbv; discriminate.
    + repeat first [apply Forall_nil | apply Forall_cons]; intros x; simpl; tauto.
    + repeat first [apply Forall_nil | apply Forall_cons].
      cbv [ok_ptr read cyc_heap g_mem fst snd Z.eqb Pos.eqb]. intros x; simpl; tauto.
  - exists (0, 0, []), (true, 0), [0]. split; [reflexivity|]. split; [discriminate|reflexivity].
  - intros fuel. assert (Q : forall n, trace arena_size n cyc_heap [] [Some (true, 0)] = Stuck SDiverge).
    { induction n as [|n IH]; [reflexivity|].
      change (trace arena_size (S n) cyc_heap [] [Some (true, 0)]) with
        (bind (bind (trace arena_size n cyc_heap [] [Some (true, 0)])
           (fun '(h1, f1, l1) =>
            let h2 := write h1 (true, 0) (KA l1) in
            if Bool.eqb true (sp_to h2) then Ok (h2, f1, Some (true, 0)) else
            match fwd_find f1 (true, 0) with
            | Some b => Ok (h2, f1, Some b)
            | None =>
                bind (trace_alloc arena_size h2 (KA l1)) (fun '(h3, b) =>
                Ok (h3, ((true, 0), b) :: f1, Some b))
            end))
         (fun '(h1, f1, p1) => Ok (h1, f1, [p1]))).
      rewrite IH. reflexivity. }
    unfold collect. cbn [trace_roots]. rewrite Q. reflexivity.
Qed.

(** The hypotheses of C60 hold of the example of C57. *)
Example C60_example : safe_roots ex_heap ex_roots /\ ~ cyclic ex_heap ex_roots.
Proof.
  split; [apply ex_safe|]. intros C.
  destruct (collect 1000 5 ex_heap ex_roots) as [r|e l|st] eqn:E; [|vm_compute in E; discriminate..].
  eapply C61_cyclic_collection_never_completes; [apply ex_safe|exact C|exact E].
Qed.

(** ** C62 (finding): a string that survived one collection and a string
    allocated since, which both fit their arenas, cannot be collected when they
    do not fit one arena together: the copy writes through a null pointer. *)
Theorem C62_collection_overflow : forall cap fuel s t,
  ~ In 0 s -> ~ In 0 t -> (0 < fuel)%nat ->
  8 + zlen s + 1 < cap -> 8 + zlen t + 1 < cap ->
  cap <= (8 + zlen s + 1) + (8 + zlen t + 1) ->
  exists h1 p h2 p' h3 q,
    gc_newS cap empty_heap (SStr s) = Ok (h1, p) /\
    collect cap fuel h1 [[p]] = Ok (h2, [[p']]) /\
    gc_newS cap h2 (SStr t) = Ok (h3, q) /\
    collect cap fuel h3 [[p'; q]] = Stuck SOomGc.
Proof.
  intros cap fuel s t Ns Nt Fu Ls Lt Lst. destruct fuel as [|fuel]; [lia|].
  assert (B1 : (0 + (8 + zlen s + 1) <? cap) = true) by lia.
  assert (B2 : (0 + (8 + zlen t + 1) <? cap) = true) by lia.
  assert (B3 : (0 + (8 + zlen t + 1) + (8 + zlen s + 1) <? cap) = false) by lia.
  do 6 eexists.
  split; [unfold gc_newS, new_cell, alloc; cbn [sp_to empty_heap g_flip negb g_head cell_size];
          rewrite B1; reflexivity|].
  split; [unfold collect; cbn [trace_roots trace trace_list trace1]; unfold read at 1;
          cbn [g_mem fst snd sp_to g_flip negb]; rewrite addr_eqb_refl;
          cbn [Bool.eqb bind]; reflexivity|].
  split; [unfold gc_newS, new_cell, alloc, flip; cbn [sp_to g_flip negb g_head Bool.eqb cell_size];
          rewrite B2; reflexivity|].
  unfold collect; cbn [trace_roots trace trace_list trace1]. unfold read at 1.
  cbn [g_mem fst snd sp_to g_flip negb Bool.eqb]. rewrite (addr_eqb_neq (true, 0) (false, 0)) by discriminate.
  rewrite addr_eqb_refl. cbn [bind]. rewrite cstr_nonul by auto.
  unfold assert_. rewrite Z.eqb_refl. cbn [bind]. unfold trace_alloc, alloc.
  cbn [sp_to g_flip negb g_head Bool.eqb cell_size]. rewrite B3. reflexivity.
Qed.
Print Assumptions C62_collection_overflow.

(** In the shipped arenas: two strings of 600000 bytes. *)
Example C62_example :
  let s := zrepeat 97 600000 in
  ~ In 0 s /\ 8 + zlen s + 1 < arena_size /\
  arena_size <= (8 + zlen s + 1) + (8 + zlen s + 1).
Proof.
  intros s. unfold s. rewrite zlen_zrepeat. unfold arena_size. split; [|lia].
  unfold zrepeat. intros I. apply repeat_spec in I. discriminate.
Qed.

Lemma alloc_addr : forall cap h c h' b, alloc cap h c = Some (h', b) ->
  b = (sp_to h, g_head h (sp_to h)) /\
  g_head h' (sp_to h') = g_head h (sp_to h) + cell_size c /\
  sp_to h' = sp_to h /\ forall a, a <> b -> read h' a = read h a.
Proof.
  intros cap h c h' b E. unfold alloc in E. destruct (_ <? cap); [|discriminate].
  match type of E with Some (?x, ?y) = Some (?u, ?w) =>
    assert (x = u) by congruence; assert (y = w) by congruence end.
  subst. split; auto. split; [|split; auto].
  - unfold sp_to at 1. cbn [g_flip g_head]. fold (sp_to h). now rewrite eqb_reflx.
  - intros [s o] N. unfold read; cbn [g_mem fst snd]. now rewrite addr_eqb_neq.
Qed.

(** Sharing of scalars is not preserved either: every reference gets its own
    copy. *)
Theorem C62_scalars_copied_per_reference : forall cap fuel h a s h' rs',
  fst a = sp_from h -> read h a = Some (KS s) ->
  collect cap fuel h [[Some a; Some a]] = Ok (h', rs') ->
  exists b c, rs' = [[Some b; Some c]] /\ b <> c.
Proof.
  intros cap fuel h a s h' rs' Fr R E. destruct fuel as [|fuel]; [discriminate|].
  assert (SP : eqb (fst a) (sp_to h) = false).
  { rewrite Fr. unfold sp_from, sp_to. destruct (g_flip h); reflexivity. }
  unfold collect in E. cbn [trace_roots trace trace_list trace1] in E.
  apply bind_ok in E as ([[h1 f1] r1] & E1 & E).
  apply bind_ok in E1 as ([[h2 f2] r2] & E2 & E1).
  cbn [trace_list trace1] in E2. rewrite R, SP in E2.
  apply bind_ok in E2 as ([[h3 f3] p3] & E3 & E2).
  apply bind_ok in E3 as (u3 & As & E3).
  apply bind_ok in E3 as ([h4 b] & Al & E3). injection E3 as <- <- <-.
  unfold trace_alloc in Al. destruct (alloc cap h (KS s)) as [[h5 b']|] eqn:A1; [|discriminate].
  injection Al as <- <-.
  destruct (alloc_addr _ _ _ _ _ A1) as (Q2 & Hd & SP5 & Q1).
  assert (R5 : read h5 a = Some (KS s)).
  { destruct (addr_dec a b') as [->|N]; [|now rewrite Q1].
    subst b'. simpl in SP. rewrite eqb_reflx in SP. discriminate. }
  cbn [trace_list trace1] in E2. rewrite R5, SP5, SP, As in E2. cbn [bind] in E2.
  apply bind_ok in E2 as ([[h6 f6] p6] & E4 & E2).
  apply bind_ok in E4 as ([[h7 f7] p7] & E5 & E4).
  apply bind_ok in E5 as ([h8 c] & Al & E5). injection E5 as <- <- <-.
  cbn [bind trace_list] in E4. injection E4 as <- <- <-. injection E2 as <- <- <-.
  injection E1 as <- <- <-. injection E as <- <-.
  exists b', c. split; auto. intros Hc.
  unfold trace_alloc in Al. destruct (alloc cap h5 (KS s)) as [[h9 c']|] eqn:A2; [|discriminate].
  assert (c' = c) by congruence. destruct (alloc_addr _ _ _ _ _ A2) as (Q3 & _).
  pose proof (cell_size_pos (KS s)).
  assert (snd b' = g_head h (sp_to h)) by (subst b'; reflexivity).
  assert (snd c = g_head h5 (sp_to h5)) by (replace c with c' by auto; rewrite Q3; reflexivity).
  assert (snd b' = snd c) by congruence. lia.
Qed.
Print Assumptions C62_scalars_copied_per_reference.

(** ** C63: the arena.  A run of allocations with no clear in between. *)
Fixpoint alloc_all (cap : Z) (h : heap) (cs : list cell) : list (option addr) :=
  match cs with
  | [] => []
  | c :: r => match alloc cap h c with
              | Some (h', a) => Some a :: alloc_all cap h' r
              | None => None :: alloc_all cap h r
              end
  end.
(** Bytes used by the successful ones among the first allocations. *)
Fixpoint used (cs : list cell) (rs : list (option addr)) : Z :=
  match cs, rs with
  | c :: cs', Some _ :: rs' => bytes_of c + used cs' rs'
  | _ :: cs', None :: rs' => used cs' rs'
  | _, _ => 0
  end.

Theorem C63_arena : forall cap h cs,
  let rs := alloc_all cap h cs in
  let start := g_head h (sp_to h) in
  List.length rs = List.length cs /\
  (* every block lies behind what was used before and inside the arena *)
  (forall i a c, znth rs i = Some (Some a) -> znth cs i = Some c ->
     fst a = sp_to h /\ start <= snd a /\ snd a + bytes_of c < cap) /\
  (* two blocks never overlap *)
  (forall i j a b c d, i < j ->
     znth rs i = Some (Some a) -> znth rs j = Some (Some b) ->
     znth cs i = Some c -> znth cs j = Some d ->
     snd a + bytes_of c <= snd b) /\
  (* an allocation fails exactly when it would reach the end of the arena *)
  (forall i c, 0 <= i -> znth cs i = Some c ->
     (znth rs i = Some None <->
      cap <= start + used (zfirstn i cs) (zfirstn i rs) + bytes_of c)).
Proof.
  intros cap h cs. cbn zeta. setoid_rewrite bytes_of_size. revert h. induction cs as [|c cs IH]; intros h; cbn zeta.
  - simpl. repeat split; try discriminate.
  - cbn [alloc_all].
    destruct (alloc cap h c) as [[h' a0]|] eqn:E.
    + destruct (alloc_addr _ _ _ _ _ E) as (Ea & Hd & St & _).
      unfold alloc in E. destruct (_ <? cap) eqn:L; [|discriminate]. clear E.
      destruct (IH h') as (I1 & I2 & I3 & I4). cbn zeta in *. rewrite Hd in *. rewrite St in *.
      pose proof (cell_size_pos c).
      split; [simpl; lia|]. split; [|split].
      * intros i a d. cbn [znth]. destruct (i =? 0) eqn:Q.
        -- intros [= <-] [= <-]. subst a0. simpl. lia.
        -- intros H1 H2. destruct (I2 _ _ _ H1 H2) as (J1 & J2 & J3). split; auto. lia.
      * intros i j a b x y Lij. cbn [znth]. destruct (i =? 0) eqn:Q.
        -- destruct (j =? 0) eqn:Q2; [lia|]. intros [= <-] H2 [= <-] H4.
           destruct (I2 _ _ _ H2 H4) as (J1 & J2 & J3). subst a0. simpl. lia.
        -- destruct (j =? 0) eqn:Q2.
           { intros H1. apply znth_some in H1. lia. }
           intros H1 H2 H3 H4. eapply (I3 (i - 1) (j - 1)); eauto. lia.
      * intros i x Li. cbn [znth]. destruct (i =? 0) eqn:Q.
        -- intros [= <-]. assert (i = 0) by lia. subst i. simpl zfirstn. simpl used.
           split; [discriminate|]. lia.
        -- intros H1. rewrite (I4 (i - 1) x) by (auto; lia).
           assert (Qz : (i <=? 0) = false) by lia.
           cbn [zfirstn]. rewrite Qz. cbn [used]. rewrite ?bytes_of_size. lia.
    + unfold alloc in E. destruct (_ <? cap) eqn:L; [discriminate|]. clear E.
      destruct (IH h) as (I1 & I2 & I3 & I4). cbn zeta in *.
      split; [simpl; lia|]. split; [|split].
      * intros i a d. cbn [znth]. destruct (i =? 0) eqn:Q; [discriminate|]. apply I2.
      * intros i j a b x y Lij. cbn [znth]. destruct (i =? 0) eqn:Q; [discriminate|].
        destruct (j =? 0) eqn:Q2; [discriminate|]. apply I3. lia.
      * intros i x Li. cbn [znth]. destruct (i =? 0) eqn:Q.
        -- intros [= <-]. assert (i = 0) by lia. subst i. simpl zfirstn. simpl used.
           split; [lia|reflexivity].
        -- intros H1. rewrite (I4 (i - 1) x) by (auto; lia).
           assert (Qz : (i <=? 0) = false) by lia.
           cbn [zfirstn]. rewrite Qz. cbn [used]. rewrite ?bytes_of_size. lia.
Qed.
Print Assumptions C63_arena.

(** Ten ints of 8 bytes in an arena of 64 bytes: seven fit, the eighth would end
    exactly at the end of the arena and is refused. *)
Example C63_example :
  alloc_all 64 empty_heap (repeat (KS (SInt 1)) 10) =
  map (fun o => Some (true, o)) [0; 8; 16; 24; 32; 40; 48] ++ [None; None; None].
Proof. reflexivity. Qed.
