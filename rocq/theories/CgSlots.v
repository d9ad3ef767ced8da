(** Proof support: the slots given out by [offsets]. *)
From Coq Require Import ZArith List Bool Lia ZifyBool.
From Verif Require Import Base BaseFacts F32 Instr Program Ast Sema SemaFacts Codegen.
Import ListNotations.
Open Scope Z_scope.

(** ** Which slot a block expects *)
Definition local_slot (d : vdecl) : bool :=
  match vd_kind d with KLocal => negb (vd_const d) | _ => false end.
Definition next_slot (x : rstmt) (c : Z) : Z :=
  match x with RVar d _ => if local_slot d then c + 1 else c | _ => c end.

Section Placed.
  Variable m : slots.
  Variable size : Z.
  Definition pseq (f : rstmt -> Z -> Prop) :=
    fix go (b : list rstmt) (c : Z) : Prop :=
      match b with
      | [] => True
      | x :: t => f x c /\ go t (next_slot x c)
      end.
  Fixpoint placed (x : rstmt) (c : Z) {struct x} : Prop :=
    let oblock o := match o with Some b => pseq placed b c | None => True end in
    match x with
    | RVar d _ => if local_slot d then assoc m (vd_id d) = c /\ c < size else True
    | RIf _ _ t f => oblock t /\ oblock f
    | RWhile _ _ b => oblock b
    | RFor _ _ _ _ _ body => pseq placed body c
    | _ => True
    end.
  Definition bplaced := pseq placed.
  Definition oplaced (o : option (list rstmt)) (c : Z) : Prop :=
    match o with Some b => bplaced b c | None => True end.
End Placed.

(** ** From the pass *)
Definition ids (x : rstmt) : list nat := map vd_id (local_decls x).
Definition bids (b : list rstmt) : list nat := map vd_id (flat_map local_decls b).
Definition oids (o : option (list rstmt)) : list nat := match o with Some b => bids b | None => [] end.

Definition off_oblock (o : option (list rstmt)) (st : ost) : ost :=
  match o with
  | None => st
  | Some b => let st' := off_block b st in OSt (o_map st') (o_max st') (o_cur st)
  end.
Lemma off_if l c t f st : off_stmt (RIf l c t f) st = off_oblock f (off_oblock t st).
Proof. reflexivity. Qed.
Lemma off_while l c b st : off_stmt (RWhile l c b) st = off_oblock b st.
Proof. reflexivity. Qed.
Lemma off_for l d lx a b body st : off_stmt (RFor l d lx a b body) st = off_oblock (Some body) st.
Proof. reflexivity. Qed.
Lemma ids_if l c t f : ids (RIf l c t f) = oids t ++ oids f.
Proof. unfold ids. cbn [local_decls]. rewrite map_app. destruct t, f; reflexivity. Qed.
Lemma ids_while l c b : ids (RWhile l c b) = oids b.
Proof. destruct b; reflexivity. Qed.
Lemma bids_cons x b : bids (x :: b) = ids x ++ bids b.
Proof. unfold bids, ids. cbn [flat_map]. apply map_app. Qed.

(** what a piece of code does to the state of the pass *)
Record extends (st st' : ost) (l : list nat) (c : Z) : Prop := Extends {
  ex_map : exists new, o_map st' = new ++ o_map st /\ incl (map fst new) l /\
           Forall (fun x => o_cur st <= snd x < o_max st') new;
  ex_cur : o_cur st' = c;
  ex_max : o_max st <= o_max st';
  ex_top : o_cur st' <= o_max st';
  ex_len : o_max st' <= Z.max (o_max st) (o_cur st + zlen l)
}.
Lemma extends_refl st l : o_cur st <= o_max st -> extends st st l (o_cur st).
Proof.
  intros H. constructor; try lia. exists []. repeat split; [intros x []|constructor].
Qed.
Lemma extends_weaken st st' l c l2 : incl l l2 -> zlen l <= zlen l2 -> extends st st' l c -> extends st st' l2 c.
Proof.
  intros I L [(new & A & B & B') C D E F]. constructor; try assumption; [|lia]. exists new. repeat split; [assumption| |assumption].
  intros x H. apply I, B, H.
Qed.
Lemma extends_trans st st1 st2 l1 l2 c1 c2 : o_cur st <= c1 <= o_cur st + zlen l1 ->
  extends st st1 l1 c1 -> extends st1 st2 l2 c2 -> extends st st2 (l1 ++ l2) c2.
Proof.
  intros R [(n1 & A1 & B1 & X1) C1 D1 E1 F1] [(n2 & A2 & B2 & X2) C2 D2 E2 F2]. constructor; try lia.
  - exists (n2 ++ n1). rewrite A2, A1, app_assoc. repeat split.
    + rewrite map_app. intros x H. apply in_app_iff. apply in_app_iff in H. destruct H; auto.
    + apply Forall_app. split; [eapply Forall_impl; [|exact X2]|eapply Forall_impl; [|exact X1]]; cbv beta; lia.
  - rewrite zlen_app. pose proof (zlen_nonneg l2). lia.
Qed.

Definition off_good (x : rstmt) : Prop := forall st, o_cur st <= o_max st ->
  extends st (off_stmt x st) (ids x) (next_slot x (o_cur st)) /\
  o_cur st <= next_slot x (o_cur st) <= o_cur st + zlen (ids x).
Lemma off_block_good b : Forall off_good b -> forall st, o_cur st <= o_max st -> exists c,
  extends st (off_block b st) (bids b) c /\ o_cur st <= c <= o_cur st + zlen (bids b).
Proof.
  induction 1 as [|x b H F IH]; intros st L; cbn [off_block].
  - exists (o_cur st). split; [apply extends_refl; exact L|]. change (bids []) with (@nil nat). rewrite zlen_nil. lia.
  - destruct (H st L) as [E R]. destruct (IH (off_stmt x st)) as (c & E' & R').
    { apply (ex_top _ _ _ _ E). }
    rewrite (ex_cur _ _ _ _ E) in R'. rewrite bids_cons.
    exists c. split; [|rewrite zlen_app; lia].
    eapply extends_trans; [|exact E|exact E']. lia.
Qed.
Lemma off_oblock_good o : oall off_good o -> forall st, o_cur st <= o_max st ->
  extends st (off_oblock o st) (oids o) (o_cur st).
Proof.
  destruct o as [b|]; intros H st L.
  - destruct (off_block_good b H st L) as (c & [(new & A & B & B') C D E F] & R). cbn [off_oblock oids].
    constructor; cbn [o_map o_max o_cur]; try lia. exists new. auto.
  - apply extends_refl. exact L.
Qed.
Lemma off_stmt_good x : off_good x.
Proof.
  induction x using rstmt_nested; intros st L;
    try (split; [apply extends_refl; exact L|cbn [next_slot]; unfold ids; cbn [local_decls map]; rewrite zlen_nil; lia]).
  - cbn [off_stmt next_slot]. unfold off_var, local_slot. pose proof (zlen_cons (vd_id d) []) as Z1.
    change (ids (RVar d e)) with [vd_id d]. rewrite zlen_nil in Z1.
    destruct (vd_kind d); cbn [negb].
    1: destruct (vd_const d); cbn [negb].
    all: try (split; [apply extends_refl; exact L|lia]).
    split; [|lia]. constructor; cbn [o_map o_max o_cur]; try lia.
    exists [(vd_id d, o_cur st)]. repeat split; [intros i H; exact H|].
    constructor; [|constructor]. cbn [snd]. lia.
  - rewrite off_if, ids_if. cbn [next_slot]. pose proof (off_oblock_good _ H st L) as A.
    pose proof (off_oblock_good _ H0 (off_oblock t st)) as B. rewrite (ex_cur _ _ _ _ A) in B.
    pose proof (zlen_nonneg (oids t)). pose proof (zlen_nonneg (oids f)).
    split; [|rewrite zlen_app; lia].
    eapply extends_trans; [|exact A|apply B]; [lia|]. pose proof (ex_top _ _ _ _ A). pose proof (ex_cur _ _ _ _ A). lia.
  - rewrite off_while, ids_while. cbn [next_slot]. pose proof (zlen_nonneg (oids b)). split; [|lia].
    apply off_oblock_good; assumption.
  - rewrite off_for. cbn [next_slot]. split.
    + apply (off_oblock_good (Some body)); assumption.
    + pose proof (zlen_nonneg (ids (RFor l d lx a b body))). lia.
Qed.
Lemma off_block_ok b st : o_cur st <= o_max st -> exists c,
  extends st (off_block b st) (bids b) c /\ o_cur st <= c <= o_cur st + zlen (bids b).
Proof. apply off_block_good. apply Forall_forall. intros x _. apply off_stmt_good. Qed.

(** ** Placement *)
Lemma assoc_skip new m id : ~ In id (map fst new) -> assoc (new ++ m) id = assoc m id.
Proof.
  induction new as [|[i o] t IH]; [reflexivity|]. cbn [map fst In app assoc]. intros N.
  destruct (Nat.eqb i id) eqn:E; [apply PeanoNat.Nat.eqb_eq in E; tauto|]. apply IH. tauto.
Qed.
Lemma extends_assoc st st' l c id : extends st st' l c -> ~ In id l -> assoc (o_map st') id = assoc (o_map st) id.
Proof. intros [(new & -> & I & _) _ _ _ _] N. apply assoc_skip. intros H. apply N, I, H. Qed.

Definition agree (m m' : slots) (l : list nat) : Prop := forall id, In id l -> assoc m id = assoc m' id.
Definition place_good (x : rstmt) : Prop := forall st m size, o_cur st <= o_max st -> NoDup (ids x) ->
  agree m (o_map (off_stmt x st)) (ids x) -> o_max (off_stmt x st) <= size ->
  placed m size x (o_cur st).
Lemma NoDup_app_parts {A} (a b : list A) : NoDup (a ++ b) -> NoDup a /\ NoDup b /\ forall x, In x a -> ~ In x b.
Proof.
  induction a as [|x a IH]; cbn [app]; intros H.
  - repeat split; [constructor|exact H|intros x []].
  - inversion H; subst. destruct (IH H3) as (P & Q & R). rewrite in_app_iff in H2. repeat split; [|exact Q|].
    + constructor; [tauto|exact P].
    + intros y [->|I]; [tauto|auto].
Qed.
Lemma place_block b : Forall place_good b -> forall st m size, o_cur st <= o_max st -> NoDup (bids b) ->
  agree m (o_map (off_block b st)) (bids b) -> o_max (off_block b st) <= size ->
  bplaced m size b (o_cur st).
Proof.
  induction 1 as [|x b H F IH]; intros st m size L N A S; cbn [off_block bplaced pseq] in *; [exact I|].
  rewrite bids_cons in *. destruct (NoDup_app_parts _ _ N) as (N1 & N2 & Dj).
  destruct (off_stmt_good x st L) as [E R].
  destruct (off_block_ok b (off_stmt x st) (ex_top _ _ _ _ E)) as (c & E' & R').
  split.
  - apply H; try assumption.
    + intros id I. rewrite (A id) by (apply in_app_iff; auto). eapply extends_assoc; [exact E'|auto].
    + pose proof (ex_max _ _ _ _ E'). lia.
  - rewrite <- (ex_cur _ _ _ _ E). apply IH; try assumption; [apply (ex_top _ _ _ _ E)|].
    intros id I. apply A. apply in_app_iff. auto.
Qed.
Lemma place_oblock o : oall place_good o -> forall st m size, o_cur st <= o_max st -> NoDup (oids o) ->
  agree m (o_map (off_oblock o st)) (oids o) -> o_max (off_oblock o st) <= size ->
  oplaced m size o (o_cur st).
Proof.
  destruct o as [b|]; intros H st m size L N A S; [|exact I]. cbn [off_oblock oids oplaced o_map o_max] in *.
  now apply place_block.
Qed.
Lemma place_stmt x : place_good x.
Proof.
  induction x using rstmt_nested; intros st sl size L N A S; try exact Logic.I.
  - cbn [placed off_stmt] in *. unfold local_slot, off_var in *. destruct (vd_kind d); try exact Logic.I.
    destruct (vd_const d); [exact Logic.I|]. cbn [negb o_map o_max] in *.
    rewrite (A (vd_id d)) by (left; reflexivity). cbn [assoc]. rewrite PeanoNat.Nat.eqb_refl. split; [reflexivity|lia].
  - rewrite off_if, ids_if in *. destruct (NoDup_app_parts _ _ N) as (N1 & N2 & Dj).
    assert (E1 : extends st (off_oblock t st) (oids t) (o_cur st)).
    { apply off_oblock_good; [|exact L]. destruct t; [|exact Logic.I]. apply Forall_forall. intros. apply off_stmt_good. }
    assert (E2 : extends (off_oblock t st) (off_oblock f (off_oblock t st)) (oids f) (o_cur (off_oblock t st))).
    { apply off_oblock_good; [|apply (ex_top _ _ _ _ E1)]. destruct f; [|exact Logic.I]. apply Forall_forall. intros. apply off_stmt_good. }
    change (oplaced sl size t (o_cur st) /\ oplaced sl size f (o_cur st)). split.
    + apply place_oblock; try assumption.
      * intros id I. rewrite (A id) by (apply in_app_iff; auto). eapply extends_assoc; [exact E2|auto].
      * pose proof (ex_max _ _ _ _ E2). lia.
    + rewrite <- (ex_cur _ _ _ _ E1). apply place_oblock; try assumption; [apply (ex_top _ _ _ _ E1)|].
      intros id I. apply A. apply in_app_iff. auto.
  - rewrite off_while, ids_while in *. change (oplaced sl size b (o_cur st)). now apply place_oblock.
  - rewrite off_for in *. change (oplaced sl size (Some body) (o_cur st)). now apply place_oblock.
Qed.

(** ** Arguments *)
Lemma off_args_new rargs : forall i m, exists new, off_args rargs i m = new ++ m /\
  incl (map fst new) (map vd_id rargs) /\ Forall (fun x => i - zlen rargs < snd x <= i) new.
Proof.
  induction rargs as [|d t IH]; intros i m; cbn [off_args].
  - exists []. repeat split; [intros x []|constructor].
  - destruct (IH (i - 1) ((vd_id d, i) :: m)) as (new & E & I & F). exists (new ++ [(vd_id d, i)]).
    rewrite E, <- app_assoc. split; [reflexivity|]. pose proof (zlen_nonneg t). rewrite zlen_cons. split.
    + rewrite map_app. cbn [map fst]. intros x H'. apply in_app_iff in H'. destruct H' as [H'|[<-|[]]]; [right; auto|left; reflexivity].
    + apply Forall_app. split; [eapply Forall_impl; [|exact F]; cbv beta; lia|]. constructor; [cbn [snd]; lia|constructor].
Qed.
Lemma off_args_assoc rargs : forall i m j d, NoDup (map vd_id rargs) -> nth_error rargs j = Some d ->
  assoc (off_args rargs i m) (vd_id d) = i - Z.of_nat j.
Proof.
  induction rargs as [|d0 t IH]; intros i m j d N E; [destruct j; discriminate|]. cbn [map] in N. inversion N; subst.
  cbn [off_args]. destruct j as [|j].
  - cbn in E. inversion E; subst. destruct (off_args_new t (i - 1) ((vd_id d, i) :: m)) as (new & -> & I & _).
    rewrite assoc_skip by (intros H'; apply H1, I, H'). cbn [assoc]. rewrite PeanoNat.Nat.eqb_refl. lia.
  - cbn [nth_error] in E. rewrite (IH (i - 1) _ j d H2 E). lia.
Qed.

(** ** The program *)
Definition item_ids (i : ritem) : list nat :=
  match i with
  | RSys _ => []
  | RGlobal d _ => [vd_id d]
  | RFunc _ args body _ => map vd_id args ++ bids body
  end.
Lemma off_items_new l : forall m sizes g, exists new nsz,
  off_items l m sizes g = (new ++ m, nsz ++ sizes) /\ incl (map fst new) (flat_map item_ids l) /\
  incl (map fst nsz) (flat_map (fun i => match i with RFunc f _ _ _ => [fd_id f] | _ => [] end) l).
Proof.
  induction l as [|i l IH]; intros m sizes g; cbn [off_items].
  - exists [], []. repeat split; intros x [].
  - destruct i as [f|d e|f args body lend].
    + apply IH.
    + cbn [flat_map item_ids app]. destruct (vd_const d).
      * destruct (IH m sizes g) as (new & nsz & E & I & J). exists new, nsz. repeat split; try assumption.
        intros x H. right. auto.
      * destruct (IH ((vd_id d, g) :: m) sizes (g + 1)) as (new & nsz & E & I & J).
        exists (new ++ [(vd_id d, g)]), nsz. rewrite E, <- app_assoc. repeat split; [|exact J].
        rewrite map_app. intros x H. apply in_app_iff in H. destruct H as [H|[<-|[]]]; [right; auto|left; reflexivity].
    + cbn [flat_map item_ids]. destruct (off_args_new (rev args) (-1) m) as (n1 & E1 & I1 & _).
      destruct (off_block_ok body (OSt (off_args (rev args) (-1) m) 0 0) ltac:(cbn; lia)) as (c & X & _).
      destruct (ex_map _ _ _ _ X) as (n2 & E2 & I2 & _). cbn [o_map] in E2.
      set (st := off_block _ _) in *.
      destruct (IH (o_map st) ((fd_id f, o_max st) :: sizes) g) as (n3 & nsz & E3 & I3 & J3).
      exists (n3 ++ n2 ++ n1), (nsz ++ [(fd_id f, o_max st)]).
      rewrite E3, E2, E1, <- !app_assoc. repeat split.
      * rewrite !map_app. intros x H. rewrite !in_app_iff in *. destruct H as [H|[H|H]]; auto.
        left. apply I1 in H. rewrite map_rev in H. now apply in_rev in H.
      * rewrite map_app. cbn [app map fst]. intros x H. apply in_app_iff in H. destruct H as [H|[<-|[]]]; [right; auto|left; reflexivity].
Qed.

Definition fun_ids (items : list ritem) : list nat :=
  flat_map (fun i => match i with RFunc f _ _ _ => [fd_id f] | _ => [] end) items.

Record slots_ok (items : list ritem) (m sizes : slots) : Prop := SlotsOk {
  so_args : forall f args body lend i d, In (RFunc f args body lend) items ->
    nth_error args i = Some d -> assoc m (vd_id d) = Z.of_nat i - zlen args;
  so_body : forall f args body lend, In (RFunc f args body lend) items ->
    bplaced m (assoc sizes (fd_id f)) body 0;
  so_size : forall f args body lend, In (RFunc f args body lend) items ->
    0 <= assoc sizes (fd_id f) <= zlen (flat_map local_decls body)
}.
Lemma off_items_ok l : forall m sizes g, NoDup (flat_map item_ids l) -> NoDup (fun_ids l) ->
  slots_ok l (fst (off_items l m sizes g)) (snd (off_items l m sizes g)).
Proof.
  induction l as [|i l IH]; intros m sizes g N F; [constructor; intros; contradiction|].
  assert (K : forall m' sizes' g', NoDup (flat_map item_ids l) -> NoDup (fun_ids l) ->
              (match i with RFunc _ _ _ _ => False | _ => True end) ->
              slots_ok (i :: l) (fst (off_items l m' sizes' g')) (snd (off_items l m' sizes' g'))).
  { intros m' sizes' g' N' F' X. destruct (IH m' sizes' g' N' F') as [A B C].
    constructor; intros f args body lend; intros; (match goal with H : In _ (_ :: _) |- _ => destruct H as [->|H]; [contradiction|] end); eauto. }
  cbn [flat_map] in N. destruct (NoDup_app_parts _ _ N) as (N1 & N2 & Dj).
  destruct i as [f|d e|f args body lend].
  - apply K; auto; exact Logic.I.
  - cbn [off_items]. destruct (vd_const d); apply K; auto; exact Logic.I.
  - clear K. cbn [off_items fun_ids flat_map app] in *. inversion F as [|? ? F1 F2]; subst.
    cbn [item_ids] in N1, Dj. destruct (NoDup_app_parts _ _ N1) as (Na & Nb & Djb).
    set (st0 := OSt (off_args (rev args) (-1) m) 0 0).
    destruct (off_block_ok body st0 ltac:(cbn; lia)) as (c & X & R). set (st := off_block body st0) in *.
    destruct (off_items_new l (o_map st) ((fd_id f, o_max st) :: sizes) g) as (new & nsz & E & I & J).
    specialize (IH (o_map st) ((fd_id f, o_max st) :: sizes) g N2 F2). rewrite E in *. cbn [fst snd] in *.
    destruct IH as [A B C].
    assert (Sz : assoc (nsz ++ (fd_id f, o_max st) :: sizes) (fd_id f) = o_max st).
    { rewrite assoc_skip by (intros H; apply F1, J, H). cbn [assoc]. now rewrite PeanoNat.Nat.eqb_refl. }
    constructor.
    + intros f' args' body' lend' i d [H|H]; [|eauto]. inversion H; subst. intros E'.
      assert (Id : In (vd_id d) (map vd_id args')) by (apply in_map; eapply nth_error_In; exact E').
      rewrite assoc_skip by (intros H'; apply (Dj (vd_id d)); [apply in_app_iff; auto|apply I, H']).
      rewrite (extends_assoc _ _ _ _ (vd_id d) X) by auto. cbn [o_map st0].
      assert (Li : (i < List.length args')%nat) by (apply nth_error_Some; congruence).
      assert (E2 : nth_error (rev args') (List.length args' - S i) = Some d).
      { rewrite <- E'. clear -Li d. revert Li. generalize args'. intros a Li.
        rewrite (nth_error_nth' (rev a) d) by (rewrite rev_length; lia). rewrite rev_nth by lia.
        replace (List.length a - S (List.length a - S i))%nat with i by lia. symmetry. now apply nth_error_nth'. }
      rewrite (off_args_assoc (rev args') (-1) m _ _ ltac:(rewrite map_rev; now apply NoDup_rev) E2). unfold zlen. lia.
    + intros f' args' body' lend' [H|H]; [|eauto]. inversion H; subst. rewrite Sz.
      change 0 with (o_cur st0). apply place_block; [apply Forall_forall; intros; apply place_stmt|cbn; lia|exact Nb| |fold st; lia].
      intros id Ii. fold st. apply assoc_skip. intros H'. apply (Dj id); [apply in_app_iff; auto|apply I, H'].
    + intros f' args' body' lend' [H|H]; [|eauto]. inversion H; subst. rewrite Sz.
      pose proof (ex_max _ _ _ _ X). pose proof (ex_len _ _ _ _ X) as Ln. cbn [o_max o_cur st0] in *.
      unfold bids in Ln. unfold zlen in *. rewrite map_length in Ln. lia.
Qed.

(** globals *)
Definition gvars (items : list ritem) : list nat :=
  flat_map (fun i => match i with RGlobal d _ => if vd_const d then [] else [vd_id d] | _ => [] end) items.
Lemma off_items_globals l : forall m sizes g, NoDup (flat_map item_ids l) ->
  forall j id, nth_error (gvars l) j = Some id -> assoc (fst (off_items l m sizes g)) id = g + Z.of_nat j.
Proof.
  induction l as [|i l IH]; intros m sizes g N j id E; [destruct j; discriminate|].
  cbn [flat_map] in N. destruct (NoDup_app_parts _ _ N) as (N1 & N2 & Dj).
  destruct i as [f|d e|f args body lend]; cbn [off_items gvars flat_map app] in *; [eauto| |eauto].
  destruct (vd_const d); [eauto|]. destruct j as [|j]; cbn [nth_error app] in E.
  - inversion E; subst. destruct (off_items_new l ((vd_id d, g) :: m) sizes (g + 1)) as (new & nsz & -> & I & _). cbn [fst].
    rewrite assoc_skip by (intros H'; apply (Dj (vd_id d)); [left; reflexivity|apply I, H']).
    cbn [assoc]. rewrite PeanoNat.Nat.eqb_refl. lia.
  - rewrite (IH _ _ _ N2 j id E). lia.
Qed.

(** all slots are small numbers *)
Definition fits_item (i : ritem) : Prop :=
  match i with
  | RFunc _ args body _ => zlen args + zlen (flat_map local_decls body) <= i32_max
  | _ => True
  end.
Lemma off_items_range l : forall m sizes g, Forall (fun x => in_i32 (snd x) = true) m ->
  Forall fits_item l -> 0 <= g -> g + zlen (gvars l) <= i32_max ->
  Forall (fun x => in_i32 (snd x) = true) (fst (off_items l m sizes g)).
Proof.
  induction l as [|i l IH]; intros m sizes g M F G L; [exact M|]. inversion F; subst.
  destruct i as [f|d e|f args body lend]; cbn [off_items gvars flat_map app fits_item] in *; [eauto| |].
  - destruct (vd_const d); [eauto|]. cbn [app] in L. rewrite zlen_cons in L. unfold gvars in *.
    pose proof (zlen_nonneg (flat_map (fun i => match i with RGlobal d _ => if vd_const d then [] else [vd_id d] | _ => [] end) l)).
    apply IH; [|assumption|lia|lia]. constructor; [|exact M]. cbn [snd]. unfold in_i32, i32_min, i32_max in *. lia.
  - apply IH; try assumption.
    destruct (off_args_new (rev args) (-1) m) as (n1 & E1 & I1 & R1).
    destruct (off_block_ok body (OSt (off_args (rev args) (-1) m) 0 0) ltac:(cbn; lia)) as (c & X & _).
    destruct (ex_map _ _ _ _ X) as (n2 & E2 & I2 & R2). cbn [o_map o_cur] in *. rewrite E2, E1.
    pose proof (ex_len _ _ _ _ X) as Ln. cbn [o_max o_cur] in Ln.
    assert (Lr : zlen (rev args) = zlen args) by (unfold zlen; now rewrite rev_length).
    assert (Lb : zlen (bids body) = zlen (flat_map local_decls body)) by (unfold zlen, bids; now rewrite map_length).
    pose proof (zlen_nonneg args). pose proof (zlen_nonneg (flat_map local_decls body)).
    apply Forall_app. split; [|apply Forall_app; split; [|exact M]].
    + eapply Forall_impl; [|exact R2]. cbv beta. unfold in_i32, i32_min, i32_max in *. lia.
    + eapply Forall_impl; [|exact R1]. cbv beta. unfold in_i32, i32_min, i32_max in *. lia.
Qed.
Lemma assoc_range m id : Forall (fun x => in_i32 (snd x) = true) m -> in_i32 (assoc m id) = true.
Proof.
  induction 1 as [|[i o] t H F IH]; [reflexivity|]. cbn [assoc]. destruct (Nat.eqb i id); [exact H|exact IH].
Qed.
