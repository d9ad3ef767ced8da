(** Proof support: the stack heights of generated code. *)
From Coq Require Import ZArith List Bool Lia ZifyBool.
From Verif Require Import Base BaseFacts F32 Instr InstrSpec InstrProofs Program VM AbsHeap VmSpec VmFacts Ast Sema SemaSpec SemaFacts Codegen
  SrcSem SrcFacts CgCode CgLayout CgSlots CgStep CgSys CgSim CgSpec CgOps CgLink CgFlow SafeSpec.
Import ListNotations.
Open Scope Z_scope.
Open Scope list_scope.

Definition spop (x : sins) : Z := pops (linked_ins hole x).
Definition spush (x : sins) : Z := pushes (linked_ins hole x).
Lemma spop_link fa x : pops (linked_ins fa x) = spop x. Proof. destruct x; reflexivity. Qed.
Lemma spush_link fa x : pushes (linked_ins fa x) = spush x. Proof. destruct x; reflexivity. Qed.

(** The change of height, and the check, from height [h] above the locals, that
    there is always enough. *)
Fixpoint eff (l : list sins) : Z :=
  match l with [] => 0 | x :: r => spush x - spop x + eff r end.
Definition stepok (h : Z) (x : sins) : Prop :=
  match linked_ins hole x with
  | I1 INS_JMP _ => h = 0
  | I1 INS_TJMP _ | I1 INS_FJMP _ | I1 INS_RET _ => h = 1
  | I1 INS_LOCALS _ => False
  | y => pops y <= h
  end.
Fixpoint chk (h : Z) (l : list sins) : Prop :=
  match l with [] => True | x :: r => stepok h x /\ chk (h + (spush x - spop x)) r end.
Lemma eff_app a b : eff (a ++ b) = eff a + eff b.
Proof. induction a as [|x a IH]; cbn [app eff]; lia. Qed.
Lemma chk_app a : forall h b, chk h (a ++ b) <-> chk h a /\ chk (h + eff a) b.
Proof.
  induction a as [|x a IH]; intros h b; cbn [app eff chk]; [rewrite Z.add_0_r; tauto|].
  rewrite IH, Z.add_assoc. tauto.
Qed.

Section Heights.
  Variables (m : slots) (sx : bytes -> Z) (sp : Z).
  Notation cexpr := (cexpr m sx).
  Notation cstmt := (cstmt m sx sp).
  Notation cblock := (cblock m sx sp).
  Notation coblock := (coblock m sx sp).

  Lemma push_get d : spush (getd m d) = 1. Proof. unfold getd. destruct (vd_kind d); reflexivity. Qed.
  Lemma pop_get d : spop (getd m d) = 0. Proof. unfold getd. destruct (vd_kind d); reflexivity. Qed.
  Lemma push_set d : spush (setd m d) = 0. Proof. unfold setd. destruct (vd_kind d); reflexivity. Qed.
  Lemma pop_set d : spop (setd m d) = 1. Proof. unfold setd. destruct (vd_kind d); reflexivity. Qed.
  Lemma ok_get h d : 0 <= h -> stepok h (getd m d). Proof. unfold getd, stepok. destruct (vd_kind d); cbn; auto. Qed.
  Lemma ok_set h d : 1 <= h -> stepok h (setd m d). Proof. unfold setd, stepok. destruct (vd_kind d); cbn; auto. Qed.

  Ltac ev := cbn [stepok spush spop eff chk app linked_ins pops pushes ins_of_bin ins_of_un].
  Definition one (l : list sins) : Prop := eff l = 1 /\ forall h, 0 <= h -> chk h l.
  Lemma h_list es : Forall (fun e => forall k, one (cexpr e k)) es -> forall k,
    eff (clist cexpr es k) = zlen es /\ forall h, 0 <= h -> chk h (clist cexpr es k).
  Proof.
    induction 1 as [|e es H F IH]; intros k; cbn [clist]; [split; [reflexivity|intros; exact Logic.I]|].
    destruct (H k) as [E1 C1]. destruct (IH (k + zlen (estrs e))) as [E2 C2]. rewrite eff_app, zlen_cons, E1, E2. split; [lia|].
    intros h L. apply chk_app. split; [auto|]. apply C2. lia.
  Qed.
  Lemma h_expr e : forall k, one (cexpr e k).
  Proof.
    assert (O : forall x, spush x = 1 -> spop x = 0 -> (forall h, 0 <= h -> stepok h x) -> one [x]).
    { intros x E1 E2 K. split; cbn [eff chk]; [lia|]. intros h L. split; [auto|exact Logic.I]. }
    induction e using rexpr_nested; intros k; cbn [CgCode.cexpr];
      try (apply O; [reflexivity|reflexivity|intros h L; exact L]; fail).
    - destruct x as [d|f]; [apply O; [apply push_get|apply pop_get|intros; apply ok_get; assumption]|].
      destruct (fd_sys f); (apply O; [reflexivity|reflexivity|intros h L; exact L]).
    - split; [cbn [eff]; rewrite push_get, pop_get; reflexivity|]. intros h L. cbn [chk]. rewrite push_get, pop_get.
      split; [apply ok_get; exact L|]. split; [|exact Logic.I]. ev. lia.
    - destruct (h_list _ H k) as [E C]. split; [rewrite eff_app, E; ev; lia|]. intros h L. apply chk_app. split; [auto|].
      rewrite E. ev. split; [lia|exact Logic.I].
    - destruct (IHe2 k) as [E2 C2]. destruct (IHe1 (k + zlen (estrs e2))) as [E1 C1]. split; [rewrite !eff_app, E1, E2; reflexivity|].
      intros h L. apply chk_app. split; [auto|]. apply chk_app. split; [apply C1; lia|]. rewrite E1, E2. ev. split; [lia|exact Logic.I].
    - destruct (h_list _ H k) as [E C]. specialize (IHe (k + zlen (flat_map estrs es))).
      assert (D : one (clist cexpr es k ++ cexpr e (k + zlen (flat_map estrs es)) ++ [SI (I1 INS_ICALL (zlen es))])).
      { destruct IHe as [E1 C1]. split; [rewrite !eff_app, E, E1; ev; lia|]. intros h L. pose proof (zlen_nonneg es).
        apply chk_app. split; [auto|]. apply chk_app. split; [apply C1; lia|]. rewrite E, E1. ev. split; [lia|exact Logic.I]. }
      destruct e as [| | | |[|fd]| | | | | |]; try exact D. clear D IHe.
      split; [rewrite eff_app, E; destruct (fd_sys fd); ev; lia|]. intros h L. apply chk_app. split; [auto|]. rewrite E.
      destruct (fd_sys fd); ev; (split; [lia|exact Logic.I]).
    - destruct (IHe1 k) as [E1 C1]. destruct (IHe2 (k + zlen (estrs e1))) as [E2 C2].
      split; [rewrite !eff_app, E1, E2; destruct o; reflexivity|].
      intros h L. apply chk_app. split; [auto|]. apply chk_app. split; [apply C2; lia|]. rewrite E1, E2.
      destruct o; ev; (split; [lia|exact Logic.I]).
    - destruct (IHe k) as [E1 C1]. split; [rewrite !eff_app, E1; destruct o; reflexivity|].
      intros h L. apply chk_app. split; [auto|]. rewrite E1. destruct o; ev; (split; [lia|exact Logic.I]).
  Qed.
  Lemma eff_expr e k : eff (cexpr e k) = 1. Proof. apply h_expr. Qed.
  Lemma chk_expr e k h : 0 <= h -> chk h (cexpr e k). Proof. apply h_expr. Qed.

  (** Statements leave the stack as they found it. *)
  Definition zero (l : list sins) : Prop := eff l = 0 /\ chk 0 l.
  Definition Zst (x : rstmt) : Prop := forall base k, zero (cstmt x base k).
  Lemma zero_nil : zero []. Proof. split; [reflexivity|exact Logic.I]. Qed.
  Lemma zero_app a b : zero a -> zero b -> zero (a ++ b).
  Proof. intros [E1 C1] [E2 C2]. split; [rewrite eff_app; lia|]. apply chk_app. rewrite E1. auto. Qed.
  Lemma z_block b : Forall Zst b -> forall base k, zero (cblock b base k).
  Proof.
    induction 1 as [|x b H F IH]; intros base k; [apply zero_nil|]. rewrite cblock_cons. apply zero_app; auto.
  Qed.
  Lemma z_oblock o : oall Zst o -> forall base k, zero (coblock o base k).
  Proof. destruct o; intros; [apply z_block; assumption|apply zero_nil]. Qed.
  Ltac zz := repeat first
    [ rewrite eff_app | rewrite eff_expr | rewrite push_get | rewrite pop_get | rewrite push_set | rewrite pop_set
    | progress cbn [eff chk app] | rewrite chk_app ].
  Lemma z_stmt x : Zst x.
  Proof.
    assert (T : forall e k (r : list sins), eff r = -1 -> chk 1 r -> zero (cexpr e k ++ r)).
    { intros e k r E C. split; [rewrite eff_app, eff_expr; lia|]. apply chk_app. rewrite eff_expr. split; [apply chk_expr; lia|exact C]. }
    induction x using rstmt_nested; intros base k.
    - cbn [CgCode.cstmt]. destruct (vd_kind d); try apply zero_nil. destruct (vd_const d); [apply zero_nil|]. destruct e; [|apply zero_nil].
      apply T; [reflexivity|]. ev. split; [lia|exact Logic.I].
    - cbn [CgCode.cstmt]. apply T; zz; [lia|]. split; [apply ok_set; lia|exact Logic.I].
    - cbn [CgCode.cstmt]. apply T; zz; [reflexivity|]. split; [apply ok_get; lia|]. ev. split; [lia|exact Logic.I].
    - cbn [CgCode.cstmt]. apply T; zz; [reflexivity|]. split; [apply chk_expr; lia|]. split; [apply ok_get; lia|]. ev. split; [lia|exact Logic.I].
    - change (cstmt (RCallS l f es) base k) with (cexpr (RCall l f es) k ++ [SI (I1 INS_POP 1)]). apply T; [reflexivity|]. ev. split; [lia|exact Logic.I].
    - rewrite cstmt_if. cbv zeta. destruct f as [f|].
      + set (ct := coblock t _ _). set (cf := coblock (Some f) _ _).
        assert (Zt : zero ct) by (apply z_oblock; assumption). assert (Zf : zero cf) by (apply (z_oblock (Some f)); assumption).
        destruct Zt as [Et Ct], Zf as [Ef Cf]. apply T.
        * zz. rewrite Et, Ef. ev. lia.
        * zz. rewrite Et. split; [reflexivity|]. split; [exact Ct|]. split; [reflexivity|exact Cf].
      + set (ct := coblock t _ _). assert (Zt : zero ct) by (apply z_oblock; assumption). destruct Zt as [Et Ct]. apply T.
        * zz. rewrite Et. reflexivity.
        * zz. split; [reflexivity|exact Ct].
    - rewrite cstmt_while. cbv zeta. set (cb := coblock b _ _). assert (Zb : zero cb) by (apply z_oblock; assumption). destruct Zb as [Eb Cb].
      split; zz; rewrite Eb; [reflexivity|]. split; [reflexivity|]. split; [exact Cb|]. split; [apply chk_expr; ev; lia|].
      ev. split; [lia|exact Logic.I].
    - rewrite cstmt_for. cbv zeta. set (cb := cblock body _ _). assert (Zb : zero cb) by (apply z_block; assumption). destruct Zb as [Eb Cb].
      split.
      + zz. rewrite Eb. ev. lia.
      + zz. rewrite Eb. ev. repeat split; auto; try (apply chk_expr; lia); try (apply ok_set; lia); try (apply ok_get; lia); try lia.
    - cbn [CgCode.cstmt]. destruct e as [e|].
      + apply T; [reflexivity|]. ev. split; [lia|exact Logic.I].
      + split; [reflexivity|]. ev. repeat split; lia.
  Qed.
  Lemma zero_block b base k : zero (cblock b base k).
  Proof. apply z_block, Forall_forall. intros. apply z_stmt. Qed.
  Lemma eff_block b base k : eff (cblock b base k) = 0. Proof. apply zero_block. Qed.
  Lemma eff_oblock o base k : eff (coblock o base k) = 0. Proof. destruct o; [apply eff_block|reflexivity]. Qed.

  (** ** Jumps lead to where only the locals are on the stack *)
  Variable fa : fdecl -> Z.
  Definition hmark (base h : Z) (l : list sins) (t : Z) : Prop :=
    exists p q, l = p ++ q /\ t = base + clen p /\ h + eff p = 0.
  Lemma hmark_here base h l t : t = base -> h = 0 -> hmark base h l t.
  Proof. intros -> ->. exists [], l. split; [reflexivity|]. rewrite clen_nil. ev. lia. Qed.
  Lemma hmark_end base h l t : t = base + clen l -> h + eff l = 0 -> hmark base h l t.
  Proof. intros -> E. exists l, []. split; [now rewrite app_nil_r|auto]. Qed.
  Lemma hmark_skip base h a l t : hmark (base + clen a) (h + eff a) l t -> hmark base h (a ++ l) t.
  Proof.
    intros (p & q & -> & -> & E). exists (a ++ p), q. split; [now rewrite app_assoc|]. rewrite clen_app, eff_app. lia.
  Qed.
  Lemma hmark_more base h l b t : hmark base h l t -> hmark base h (l ++ b) t.
  Proof. intros (p & q & -> & -> & E). exists p, (q ++ b). split; [now rewrite app_assoc|auto]. Qed.
  Definition hto (B h : Z) (L : list sins) (l : list sins) : Prop :=
    Forall (fun i => forall t, jump_target (linked_ins fa i) = Some t -> hmark B h L t) l.
  Lemma hto_nj B h L l : Forall (NJ fa) l -> hto B h L l.
  Proof. apply Forall_impl. intros x N t E. rewrite N in E. discriminate. Qed.
  Lemma hto_app B h L a b : hto B h L a -> hto B h L b -> hto B h L (a ++ b).
  Proof. intros. apply Forall_app. auto. Qed.
  Lemma hto_one B h L i t : hmark B h L t -> hto B h L [SI (I1 i t)].
  Proof. intros H. constructor; [|constructor]. intros t'. ev. destruct i; intros E; inversion E; subst; exact H. Qed.
  Lemma hto_skip B h a L l : hto (B + clen a) (h + eff a) L l -> hto B h (a ++ L) l.
  Proof. apply Forall_impl. intros x H t E. apply hmark_skip, H, E. Qed.
  Lemma hto_more B h L b l : hto B h L l -> hto B h (L ++ b) l.
  Proof. apply Forall_impl. intros x H t E. apply hmark_more, H, E. Qed.
  Lemma hto_at B B' h L l : B = B' -> h = 0 -> hto B' 0 L l -> hto B h L l.
  Proof. intros -> ->. auto. Qed.
  Lemma nj_one i o : jump_target (I1 i o) = None -> Forall (NJ fa) [SI (I1 i o)].
  Proof. intros H. constructor; [exact H|constructor]. Qed.
  Ltac nj := repeat first [apply nj_expr|apply Forall_app; split|apply Forall_cons|apply Forall_nil|apply jt_getd|apply jt_setd|reflexivity].
  Ltac hh := zz; rewrite ?eff_block, ?eff_oblock; ev; lia.

  Definition Hst (x : rstmt) : Prop := forall base k, hto base 0 (cstmt x base k) (cstmt x base k).
  Lemma hto_block b : Forall Hst b -> forall base k, hto base 0 (cblock b base k) (cblock b base k).
  Proof.
    induction 1 as [|x b H F IH]; intros base k; [constructor|]. rewrite cblock_cons.
    apply hto_app; [apply hto_more, H|apply hto_skip]. eapply hto_at; [reflexivity| |apply IH]. destruct (z_stmt x base k). lia.
  Qed.
  Lemma hto_oblock o : oall Hst o -> forall base k, hto base 0 (coblock o base k) (coblock o base k).
  Proof. destruct o; intros; [apply hto_block; assumption|constructor]. Qed.
  Lemma hto_stmt x : Hst x.
  Proof.
    assert (J5 : forall i t, operands i = 1 -> clen [SI (I1 i t)] = 5) by (intros; rewrite clen1; apply sw1; assumption).
    induction x using rstmt_nested; intros base k.
    - apply hto_nj. cbn [CgCode.cstmt]. destruct (vd_kind d); try constructor. destruct (vd_const d); [constructor|]. destruct e; nj.
    - apply hto_nj. cbn [CgCode.cstmt]. nj.
    - apply hto_nj. cbn [CgCode.cstmt]. nj.
    - apply hto_nj. cbn [CgCode.cstmt]. nj.
    - apply hto_nj. change (cstmt (RCallS l f es) base k) with (cexpr (RCall l f es) k ++ [SI (I1 INS_POP 1)]). apply Forall_app. split; [apply nj_expr|nj].
    - rewrite cstmt_if. cbv zeta. destruct f as [f|].
      + set (cc := cexpr c k). set (ct := coblock t _ _). set (cf := coblock (Some f) _ _).
        set (j1 := [SI (I1 INS_FJMP _)]). set (j2 := [SI (I1 INS_JMP _)]).
        assert (J1 : clen j1 = 5) by (apply J5; reflexivity). assert (J2 : clen j2 = 5) by (apply J5; reflexivity).
        assert (Ec : eff cc = 1) by apply eff_expr. assert (Et : eff ct = 0) by apply eff_oblock. assert (Ef : eff cf = 0) by apply (eff_oblock (Some f)).
        assert (E1 : eff j1 = -1) by reflexivity. assert (E2 : eff j2 = 0) by reflexivity.
        apply hto_app; [apply hto_nj; nj|]. apply hto_app.
        { apply hto_one. apply hmark_skip, hmark_skip, hmark_skip, hmark_skip, hmark_here; lia. }
        apply hto_app. { apply hto_skip, hto_skip, hto_more. eapply hto_at; [| |apply hto_oblock; assumption]; lia. }
        apply hto_app. { apply hto_one. apply hmark_end; rewrite ?clen_app, ?eff_app; lia. }
        apply hto_skip, hto_skip, hto_skip, hto_skip. eapply hto_at; [| |apply (hto_oblock (Some f)); assumption]; fold ct; lia.
      + set (cc := cexpr c k). set (ct := coblock t _ _). set (j1 := [SI (I1 INS_FJMP _)]).
        assert (J1 : clen j1 = 5) by (apply J5; reflexivity).
        assert (Ec : eff cc = 1) by apply eff_expr. assert (Et : eff ct = 0) by apply eff_oblock. assert (E1 : eff j1 = -1) by reflexivity.
        apply hto_app; [apply hto_nj; nj|]. apply hto_app.
        { apply hto_one. apply hmark_end; rewrite ?clen_app, ?eff_app; lia. }
        apply hto_skip, hto_skip. eapply hto_at; [| |apply hto_oblock; assumption]; lia.
    - rewrite cstmt_while. cbv zeta. set (cb := coblock b _ _). set (cc := cexpr c _). set (j1 := [SI (I1 INS_JMP _)]). set (j2 := [SI (I1 INS_TJMP _)]).
      assert (J1 : clen j1 = 5) by (apply J5; reflexivity).
      assert (Ec : eff cc = 1) by apply eff_expr. assert (Eb : eff cb = 0) by apply eff_oblock.
      assert (E1 : eff j1 = 0) by reflexivity.
      apply hto_app. { apply hto_one. apply hmark_skip, hmark_skip, hmark_here; lia. }
      apply hto_app. { apply hto_skip, hto_more. eapply hto_at; [| |apply hto_oblock; assumption]; lia. }
      apply hto_app; [apply hto_nj; nj|]. apply hto_one. apply hmark_skip, hmark_here; lia.
    - rewrite cstmt_for. cbv zeta. set (ca := cexpr a k ++ _). set (cb := cblock body _ _). set (cc := cexpr b _).
      set (inc := [getd m d; SI (I1 INS_NEW_INT 1); SI (I0 INS_ADD); setd m d]).
      set (j1 := [SI (I1 INS_JMP _)]). assert (J1 : clen j1 = 5) by (apply J5; reflexivity).
      assert (Ea : eff ca = 0) by (unfold ca; zz; lia). assert (Eb : eff cb = 0) by apply eff_block.
      assert (Ei : eff inc = 0) by (unfold inc; zz; reflexivity). assert (E1 : eff j1 = 0) by reflexivity.
      apply hto_app; [apply hto_nj; unfold ca; nj|]. apply hto_app. { apply hto_one. apply hmark_skip, hmark_skip, hmark_skip, hmark_here; rewrite ?eff_app; lia. }
      apply hto_app.
      { apply hto_app; [|apply hto_nj; unfold inc; nj]. apply hto_skip, hto_skip, hto_more, hto_more. eapply hto_at; [| |apply hto_block; assumption]; lia. }
      apply hto_app; [apply hto_nj; nj|]. apply hto_app; [apply hto_nj; nj|].
      apply Forall_cons_app; [apply hto_nj; nj|]. apply hto_one. apply hmark_skip, hmark_skip, hmark_here; lia.
    - apply hto_nj. cbn [CgCode.cstmt]. destruct e; nj.
  Qed.
  Lemma hjump_block b base k : hto base 0 (cblock b base k) (cblock b base k).
  Proof. apply hto_block, Forall_forall. intros. apply hto_stmt. Qed.
End Heights.

(** ** Operands *)
Section Operands.
  Variables (m : slots) (sx : bytes -> Z) (sp nstr : Z).
  Variables (SV : Z -> Prop) (SC : Z -> Z -> Prop) (UF : fdecl -> Prop) (UC : Z -> fdecl -> Prop).
  Definition OP (x : sins) : Prop :=
    match x with
    | SI (I1 INS_NEW_STR o) | SI (I1 INS_GETM o) | SI (I1 INS_SETM o) => 0 <= o < nstr
    | SI (I1 INS_NEW_SCALL o) => SV o
    | SI (I2 INS_SCALL n o) => SC n o
    | SI (I1 INS_ICALL n) | SI (I1 INS_POP n) => 0 <= n
    | SI (I1 INS_ARY_INIT n) => 0 < n
    | SI (I1 INS_RET o) => o = sp
    | SI (I1 INS_LOCALS _) | SI (I1 INS_GLOBALS _) | SI (I1 INS_NEW_ARY _) | SI (I1 INS_NEW_FUNC _) | SI (I2 INS_CALL _ _) => False
    | SI _ => True
    | SFn f => UF f
    | SCall n f => UC n f
    end.
  Definition callee (e : rexpr) : Prop :=
    match e with
    | RIdent (DF f) _ => if fd_sys f then SV (sx (fd_name f)) else UF f
    | RCall _ (RIdent (DF f) _) es => if fd_sys f then SC (zlen es) (sx (fd_name f)) else UC (zlen es) f
    | RArray _ es => es <> []
    | _ => True
    end.
  Notation good es := (Forall callee (flat_map inside es)).
  Lemma op_get d : OP (getd m d). Proof. unfold getd. destruct (vd_kind d); exact Logic.I. Qed.
  Lemma op_set d : OP (setd m d). Proof. unfold setd. destruct (vd_kind d); exact Logic.I. Qed.
  Lemma op_bin o : OP (SI (I0 (ins_of_bin o))). Proof. destruct o; exact Logic.I. Qed.
  Lemma op_un o : OP (SI (I0 (ins_of_un o))). Proof. destruct o; exact Logic.I. Qed.
  Ltac op := repeat first [apply Forall_app; split|apply Forall_cons|apply Forall_nil|exact Logic.I|apply op_get|apply op_set|match goal with |- OP (SI (I0 (ins_of_bin _))) => apply op_bin | |- OP (SI (I0 (ins_of_un _))) => apply op_un end].
  Ltac bound := repeat match goal with
    | H : context [zlen ?l] |- _ => lazymatch goal with _ : 0 <= zlen l |- _ => fail | _ => pose proof (zlen_nonneg l) end
    end; lia.
  Definition Eop (e : rexpr) : Prop := forall k, Forall callee (inside e) -> 0 <= k -> k + zlen (estrs e) <= nstr -> Forall OP (cexpr m sx e k).
  Lemma op_list es : Forall Eop es -> forall k, good es -> 0 <= k -> k + zlen (flat_map estrs es) <= nstr -> Forall OP (clist (cexpr m sx) es k).
  Proof.
    induction 1 as [|e1 es H F IH]; intros k D K1 K2; cbn [clist flat_map] in *; [constructor|]. apply Forall_app in D. destruct D.
    rewrite zlen_app in K2. apply Forall_app. split; [apply H; auto; bound|apply IH; auto; bound].
  Qed.
  Lemma op_expr e : Eop e.
  Proof.
    induction e using rexpr_nested; intros k D K1 K2; cbn [cexpr inside estrs] in *; inversion D as [|? ? D1 D2]; subst; op; rewrite ?zlen_app in K2.
    - cbn [OP]. rewrite zlen_cons, zlen_nil in K2. lia.
    - destruct x as [d|f]; op. cbn [callee] in D1. destruct (fd_sys f); exact D1.
    - cbn [OP]. rewrite zlen_cons, zlen_nil in K2. lia.
    - apply op_list; assumption.
    - cbn [OP callee] in *. destruct es; [congruence|]. rewrite zlen_cons. pose proof (zlen_nonneg es). lia.
    - apply Forall_app in D2. apply IHe2; [apply D2|bound|bound].
    - apply Forall_app in D2. apply IHe1; [apply D2|bound|bound].
    - apply Forall_app in D2. apply op_list; [assumption|apply D2|bound|bound].
    - apply Forall_app in D2. destruct D2 as [D2 _].
      assert (G : Forall OP (cexpr m sx e (k + zlen (flat_map estrs es)) ++ [SI (I1 INS_ICALL (zlen es))])).
      { apply Forall_app. split; [apply IHe; auto; bound|]. constructor; [|constructor]. apply zlen_nonneg. }
      destruct e as [| | | |[|fd]| | | | | |]; try exact G. clear G. cbn [callee] in D1.
      constructor; [|constructor]. destruct (fd_sys fd); exact D1.
    - apply Forall_app in D2. apply IHe1; [apply D2|bound|bound].
    - apply Forall_app in D2. apply IHe2; [apply D2|bound|bound].
    - apply IHe; assumption.
  Qed.
  Lemma opgood_app a b : good (a ++ b) -> good a /\ good b.
  Proof. rewrite flat_map_app. apply Forall_app. Qed.
  Lemma opgood_cons a b : good (a :: b) -> Forall callee (inside a) /\ good b.
  Proof. apply Forall_app. Qed.
  Definition OPst (x : rstmt) : Prop := forall base k, good (exprs_stmt x) -> 0 <= k -> k + zlen (sstrs x) <= nstr -> Forall OP (cstmt m sx sp x base k).
  Lemma op_block b : Forall OPst b -> forall base k, good (flat_map exprs_stmt b) -> 0 <= k -> k + zlen (flat_map sstrs b) <= nstr ->
    Forall OP (cblock m sx sp b base k).
  Proof.
    induction 1 as [|x b H F IH]; intros base k D K1 K2; [constructor|]. cbn [flat_map] in *. apply opgood_app in D. destruct D.
    rewrite zlen_app in K2. rewrite cblock_cons. apply Forall_app. split; [apply H; auto; bound|apply IH; auto; bound].
  Qed.
  Lemma op_oblock o : oall OPst o -> forall base k, good (match o with Some b => flat_map exprs_stmt b | None => [] end) ->
    0 <= k -> k + zlen (ostrs o) <= nstr -> Forall OP (coblock m sx sp o base k).
  Proof. destruct o; intros; [apply op_block; assumption|constructor]. Qed.
  Lemma op_jump i t : i = INS_JMP \/ i = INS_TJMP \/ i = INS_FJMP -> OP (SI (I1 i t)).
  Proof. intros [->|[->| ->]]; exact Logic.I. Qed.
  Lemma op_stmt x : OPst x.
  Proof.
    induction x using rstmt_nested; intros base k D K1 K2; cbn [exprs_stmt] in D.
    - cbn [cstmt sstrs] in *. destruct (vd_kind d); try constructor. destruct (vd_const d); [constructor|]. destruct e as [e|]; [|constructor].
      apply opgood_cons in D. op. apply op_expr; [apply D|bound|bound].
    - cbn [cstmt sstrs] in *. apply opgood_cons in D. op. apply op_expr; [apply D|bound|bound].
    - cbn [cstmt sstrs] in *. apply opgood_cons in D. rewrite zlen_app, zlen_cons, zlen_nil in K2. op.
      + apply op_expr; [apply D|bound|bound].
      + cbn [OP]. bound.
    - cbn [cstmt sstrs] in *. apply opgood_cons in D. destruct D as [D1 D]. apply opgood_cons in D. rewrite zlen_app in K2.
      op; apply op_expr; try apply D; try exact D1; bound.
    - change (cstmt m sx sp (RCallS l f es) base k) with (cexpr m sx (RCall l f es) k ++ [SI (I1 INS_POP 1)]).
      change (sstrs (RCallS l f es)) with (estrs (RCall l f es)) in K2.
      apply opgood_cons in D. apply Forall_app. split; [apply op_expr; [apply D|bound|bound]|]. constructor; [cbn [OP]; lia|constructor].
    - rewrite sstrs_if in K2. rewrite cstmt_if. cbv zeta. apply opgood_cons in D. destruct D as [D1 D]. apply opgood_app in D. destruct D as [D2 D3].
      rewrite !zlen_app in K2.
      destruct f; op; try (apply op_expr; [assumption|bound|bound]); try (apply op_oblock; [assumption|assumption|bound|bound]).
    - rewrite sstrs_while in K2. rewrite cstmt_while. cbv zeta. apply opgood_cons in D. destruct D as [D1 D]. rewrite zlen_app in K2.
      op; [apply op_oblock; [assumption|assumption|bound|bound]|apply op_expr; [assumption|bound|bound]].
    - change (sstrs (RFor l d lx a b body)) with (estrs a ++ flat_map sstrs body ++ estrs b) in K2.
      rewrite cstmt_for. cbv zeta. apply opgood_cons in D. destruct D as [D1 D]. apply opgood_cons in D. destruct D as [D2 D3].
      rewrite !zlen_app in K2.
      op; [apply op_expr; [assumption|bound|bound]|apply op_block; [assumption|assumption|bound|bound]|apply op_expr; [assumption|bound|bound]].
    - cbn [cstmt sstrs] in *. apply Forall_app. split; [|constructor; [reflexivity|constructor]].
      destruct e as [e|]; [|op]. apply opgood_cons in D. apply op_expr; [apply D|bound|bound].
  Qed.
  Lemma operands_block b base k : good (flat_map exprs_stmt b) -> 0 <= k -> k + zlen (flat_map sstrs b) <= nstr -> Forall OP (cblock m sx sp b base k).
  Proof. apply op_block, Forall_forall. intros. apply op_stmt. Qed.
End Operands.

(** ** Heights by address *)
Fixpoint height (b h : Z) (l : list sins) (a : Z) : Z :=
  match l with
  | [] => h
  | x :: r => if a =? b then h else height (b + swidth x) (h + (spush x - spop x)) r a
  end.
Lemma height_at l : forall b h p x r, l = p ++ x :: r -> Forall (fun y => 1 <= swidth y) l -> height b h l (b + clen p) = h + eff p.
Proof.
  induction l as [|y l IH]; intros b h p x r E W; [destruct p; discriminate|]. inversion W as [|? ? W1 W2]; subst. cbn [height].
  destruct p as [|z p].
  - rewrite clen_nil, Z.add_0_r, Z.eqb_refl. cbn [eff]. lia.
  - cbn [app] in E. inversion E; subst. rewrite clen_cons. pose proof (clen_nonneg p).
    replace (b + (swidth z + clen p) =? b) with false by lia. replace (b + (swidth z + clen p)) with (b + swidth z + clen p) by lia.
    rewrite (IH _ _ p x r eq_refl W2). cbn [eff]. lia.
Qed.
Lemma chk_at l : forall h p x r, l = p ++ x :: r -> chk h l -> stepok (h + eff p) x.
Proof. intros h p x r -> C. apply chk_app in C. apply C. Qed.

Lemma cut_at {A} (P : list A) : forall L p x r, p ++ x :: r = P ++ L ->
  (exists r1, P = p ++ x :: r1) \/ (exists p1, p = P ++ p1 /\ L = p1 ++ x :: r).
Proof.
  induction P as [|y P IH]; intros L p x r E; cbn [app] in *; [right; exists p; auto|].
  destruct p as [|z p]; cbn [app] in *; inversion E; subst; [left; eauto|].
  destruct (IH _ _ _ _ H1) as [(r1 & ->)|(p1 & -> & ->)]; [left; eauto|right; eauto].
Qed.

(** ** Generated programs keep the discipline *)
Section Verify.
  Variables (items : list ritem) (n : nat) (prog q : program_t).
  Hypothesis Gen : generate items n = Ok prog.
  Hypothesis Pok : program_ok items n.
  Hypothesis Fit : fits prog.
  Hypothesis Bnd : bound prog q.
  Let m := g_slots items n.
  Let sizes := g_sizes items n.
  Let ng := g_ng items n.
  Let sx := sys_index q.
  Let fa := fun f => address q (fd_name f).
  Let lay := g_layout items n sx.

  Definition SVq (o : Z) : Prop := exists fn, bound_to q o fn.
  Definition SCq (k o : Z) : Prop := exists fn, bound_to q o fn /\ reads fn k.
  Definition UFq (f : fdecl) : Prop := exists g, function_at q (fa f) g.
  Definition UCq (k : Z) (f : fdecl) : Prop := exists g, function_at q (fa f) g /\ num_args g = k.
  Hypothesis Calls : Forall (callee sx SVq SCq UFq UCq) (program_exprs items).

  Lemma init_size p : In p lay -> is_init (pl_f p) = true -> fsize sizes (pl_f p) = 0.
  Proof.
    intros I E. destruct (place_item items n q p I) as (lend & J).
    pose proof (so_size _ _ _ (slots_good items n Pok) _ _ _ _ J) as S. fold sizes in S.
    unfold g_items, add_init in J. apply in_app_iff in J. destruct J as [J|[J|[]]].
    - rewrite (not_init items n Pok _ _ _ _ J) in E. discriminate.
    - inversion J as [[J1 J2 J3 J4]]. rewrite <- J3, <- J1 in S. unfold fsize.
      assert (Z0 : zlen (flat_map local_decls (flat_map init_assign items)) = 0); [|lia].
      clear. induction items as [|i l IH]; [reflexivity|]. cbn [flat_map]. rewrite flat_map_app, zlen_app, IH.
      destruct i as [|d [e|]|]; try reflexivity. cbn [init_assign]. destruct (vd_const d); reflexivity.
  Qed.

  Section Place.
    Variable p : place.
    Hypothesis Ip : In p lay.
    Let size := fsize sizes (pl_f p).
    Let sp := space sizes (pl_f p) (pl_args p).
    Let code := pl_code m sizes sx ng p.
    Let P := prologue sizes ng (pl_f p).
    Let B := cblock m sx sp (pl_body p) (pl_base p + clen P) (pl_k p).
    Let E := epilogue sizes (pl_f p) (pl_args p) (pl_body p).
    Lemma code_parts : code = P ++ B ++ E. Proof. reflexivity. Qed.
    Lemma eff_P : eff P = size.
    Proof.
      unfold P, prologue. destruct (is_init (pl_f p)) eqn:I; [unfold size; rewrite init_size by assumption; reflexivity|]. fold size.
      destruct (size_range items n prog q Gen Pok Fit Bnd p Ip) as [S _]. fold sizes size in S.
      destruct (0 <? size) eqn:L; [|cbn [eff]; lia]. cbn [eff spush spop linked_ins pushes pops]. lia.
    Qed.
    Lemma chk_BE : chk 0 (B ++ E).
    Proof.
      apply chk_app. unfold B. rewrite eff_block. split; [apply zero_block|]. unfold E, epilogue.
      destruct (negb _ && _); [exact Logic.I|]. cbn. repeat split; lia.
    Qed.
    Lemma op_BE : Forall (OP sp (zlen (p_strings q)) SVq SCq UFq UCq) (B ++ E).
    Proof.
      apply Forall_app. split.
      - destruct (place_item items n q p Ip) as (lend & J).
        destruct (place_strs items n prog q Gen Pok Bnd p Ip) as (pre & suf & E1 & E2).
        apply operands_block.
        + apply (exprs_all items); [exact Calls|eapply body_exprs; exact J].
        + rewrite <- E2. apply zlen_nonneg.
        + rewrite E1, !zlen_app. pose proof (zlen_nonneg suf). lia.
      - unfold E, epilogue. destruct (negb _ && _); repeat constructor.
    Qed.
    Lemma hto_code : hto fa (pl_base p) (- size) code code.
    Proof.
      rewrite code_parts. apply hto_app.
      - apply hto_nj. unfold P, prologue. destruct (is_init (pl_f p)); [constructor; [reflexivity|constructor]|].
        destruct (0 <? _); [constructor; [reflexivity|constructor]|constructor].
      - apply hto_skip. eapply hto_at; [reflexivity|rewrite eff_P; lia|]. apply hto_app.
        + apply hto_more. apply hjump_block.
        + apply hto_nj. unfold E, epilogue. destruct (negb _ && _); [constructor|]. constructor; [reflexivity|]. constructor; [reflexivity|constructor].
    Qed.
    Lemma code_here : code_at q fa (pl_base p) code.
    Proof. exact (place_code_at items n prog q Gen Pok Fit Bnd p Ip). Qed.
    Let QL : 4 < zlen (p_code q) := q_len items n prog q Gen Pok Bnd.
    Lemma widths : Forall (fun y => 1 <= swidth y) code.
    Proof. destruct code_here as [_ W]. eapply Forall_impl; [|exact W]. intros y. apply swidth_pos. Qed.
    Lemma code_some : code <> [].
    Proof.
      intros N. pose proof (cfunc_pos m sizes sx ng (pl_f p) (pl_args p) (pl_body p) (pl_base p) (pl_k p)) as X.
      unfold code, pl_code in N. rewrite N in X. change (clen []) with 0 in X. lia.
    Qed.
    Let f := placed_function m sizes sx ng p.
    Let h := height (pl_base p) 0 code.

    Lemma op_link x : OP sp (zlen (p_strings q)) SVq SCq UFq UCq x -> operand_ok q f size (linked_ins fa x).
    Proof.
      intros O. assert (Esp : sp = num_args f + size) by (unfold num_args, f; cbn [placed_function f_args]; rewrite zlen_map; reflexivity).
      destruct x as [[i|i o|i o1 o2]|k g|g]; cbn [linked_ins operand_ok OP] in *; try exact O; destruct i; auto; try contradiction.
      rewrite <- Esp. exact O.
    Qed.
    Lemma step_enough p1 x : stepok (eff p1) x -> enough (linked_ins fa x) size (size + eff p1).
    Proof.
      unfold stepok, enough. destruct x as [[i|i o|i o1 o2]|k g|g]; cbn [linked_ins spop]; try (destruct i); unfold spop; cbn [linked_ins pops]; lia.
    Qed.

    Lemma at_ret : 0 <= pl_base p -> exists u i, code = u ++ [SI (I1 INS_RET i)] /\ jto fa (pl_base p) u code.
    Proof.
      intros _. apply (cfunc_jumps m sizes sx ng fa (pl_f p) (pl_args p) (pl_body p) (pl_base p) (pl_k p)).
      apply small_i32, (size_range items n prog q Gen Pok Fit Bnd p Ip).
    Qed.

    Lemma place_disciplined : disciplined q f size h.
    Proof.
      destruct (size_range items n prog q Gen Pok Fit Bnd p Ip) as [Sz _]. fold sizes size in Sz.
      destruct (place_range items n prog q Gen Pok Fit Bnd p Ip) as [Rb _].
      assert (Cl : clen code = f_end f - f_start f) by (unfold f, code; cbn [placed_function f_start f_end]; lia).
      constructor.
      - exact Sz.
      - unfold h. pose proof code_some as N. destruct code as [|x r]; [congruence|]. cbn [height f placed_function f_start].
        rewrite Z.eqb_refl. reflexivity.
      - intros a S L. unfold f in S, L. cbn [placed_function f_start f_end] in S, L. fold code in L.
        destruct (starts_inside q fa QL _ _ code_here code_some _ S L) as (pre & x & r & Ec & Ea).
        pose proof code_here as C. rewrite Ec in C. destruct (code_in q fa QL _ _ _ _ C) as [A W].
        exists (linked_ins fa x). rewrite Ea. split; [exact A|].
        assert (Ha : h (pl_base p + clen pre) = eff pre) by (unfold h; rewrite (height_at _ _ _ _ _ _ Ec widths); lia).
        assert (Cases : (pre = [] /\ exists o, (linked_ins fa x = I1 INS_LOCALS o /\ o = size) \/
                           (linked_ins fa x = I1 INS_GLOBALS o /\ size = 0 /\ 0 <= o)) \/
                        (exists p1, eff pre = size + eff p1 /\ stepok (eff p1) x /\ OP sp (zlen (p_strings q)) SVq SCq UFq UCq x)).
        { pose proof Ec as Ec2. rewrite code_parts in Ec2. symmetry in Ec2. apply cut_at in Ec2. destruct Ec2 as [(r1 & EP)|(p1 & -> & EL)].
          - left. unfold P, prologue in EP. destruct (is_init (pl_f p)) eqn:I.
            + destruct pre as [|? [|]]; inversion EP; subst x r1. split; [reflexivity|]. exists ng. right. split; [reflexivity|].
              split; [apply init_size; assumption|]. unfold ng. rewrite ng_count. apply zlen_nonneg.
            + fold size in EP. destruct (0 <? size); [|destruct pre; discriminate]. destruct pre as [|? [|]]; inversion EP; subst x r1.
              split; [reflexivity|]. exists size. left. auto.
          - right. exists p1. rewrite eff_app, eff_P. split; [reflexivity|]. split.
            + pose proof (chk_at _ _ _ _ _ EL chk_BE) as K. exact K.
            + pose proof op_BE as O. rewrite EL in O. apply Forall_app in O. destruct O as [_ O]. now inversion O. }
        assert (Jt : forall t, jump_target (linked_ins fa x) = Some t -> starts q (pl_base p) t /\ t < pl_base p + clen code /\ h t = size).
        { intros t T. assert (Ix : In x code) by (rewrite Ec; apply in_app_iff; right; left; reflexivity).
          destruct (at_ret Rb) as (u & i & Eu & J). unfold jto in J. rewrite Forall_forall in J. specialize (J x Ix t T).
          assert (R : pl_base p <= t <= pl_base p + clen u)
            by (destruct J as (u1 & v1 & -> & ->); rewrite clen_app; pose proof (clen_nonneg u1); pose proof (clen_nonneg v1); lia).
          pose proof hto_code as K. unfold hto in K. rewrite Forall_forall in K. destruct (K x Ix t T) as (pm & qm & Em & Et & Eh).
          assert (Lt : t < pl_base p + clen code) by (rewrite Eu, clen_app, clen1, sw1 by reflexivity; lia).
          split; [apply (starts_mark q fa QL _ _ code_here); exists pm, qm; auto|]. split; [exact Lt|].
          destruct qm as [|z qm]; [rewrite app_nil_r in Em; rewrite <- Em in Et; lia|].
          rewrite Et. unfold h. rewrite (height_at _ _ _ _ _ _ Em widths). lia. }
        split; [|split].
        + destruct Cases as [(_ & o & [[-> ->]|(-> & _ & O)])|(p1 & _ & _ & O)]; [reflexivity|exact O|apply op_link; exact O].
        + rewrite Ha. destruct Cases as [(-> & o & [[-> ->]|(-> & -> & O)])|(p1 & -> & K & O)]; [reflexivity|cbn; lia|apply step_enough; exact K].
        + intros b [[Fl ->]|T].
          * rewrite <- (swidth_len fa) by exact W. destruct r as [|z r].
            { exfalso. destruct (at_ret Rb) as (u & i & Eu & _). rewrite Ec in Eu. apply app_inj_tail in Eu. destruct Eu as [_ ->]. discriminate. }
            assert (Ez : code = (pre ++ [x]) ++ z :: r) by (rewrite Ec, <- app_assoc; reflexivity).
            replace (pl_base p + clen pre + swidth x) with (pl_base p + clen (pre ++ [x])) by (rewrite clen_app, clen1; lia).
            split; [|split].
            -- cbn [f placed_function f_start]. apply (starts_mark q fa QL _ _ code_here). exists (pre ++ [x]), (z :: r). auto.
            -- change (f_end f) with (pl_base p + clen code). rewrite Ez, (clen_app (pre ++ [x])), clen_cons. pose proof widths as Wd. rewrite Ez in Wd.
               apply Forall_app in Wd. destruct Wd as [_ Wd]. inversion Wd as [|? ? W1 W2]. pose proof (clen_nonneg r). lia.
            -- rewrite Ha. unfold h. rewrite (height_at _ _ _ _ _ _ Ez widths), eff_app, spop_link, spush_link. cbn [eff]. lia.
          * destruct (Jt b T) as (J1 & J2 & J3). split; [exact J1|]. split; [exact J2|]. rewrite J3, Ha.
            destruct Cases as [(_ & o & [[Ex _]|(Ex & _)])|(p1 & -> & K & _)]; [rewrite Ex in T; discriminate|rewrite Ex in T; discriminate|].
            destruct x as [[i|i o|i o1 o2]|k g|g]; cbn [linked_ins jump_target] in T; try discriminate;
              destruct i; try discriminate; unfold stepok in K; cbn [linked_ins pops pushes] in *; lia.
    Qed.
  End Place.

  Lemma generated_verified : verified q.
  Proof.
    assert (IF : forall f, In f (p_functions q) -> exists p, In p lay /\ f = placed_function m sizes sx ng p).
    { intros f. rewrite (bo_functions _ _ Bnd), (gd_funs _ _ _ _ (made items n prog q Gen Pok Bnd)). intros I.
      apply in_map_iff in I. destruct I as (p & E & I). eauto. }
    constructor.
    - intros f I. destruct (IF f I) as (p & Ip & ->). cbn [f_start f_end placed_function].
      destruct (place_range items n prog q Gen Pok Fit Bnd p Ip) as [Rb _].
      pose proof (cfunc_pos m sizes sx ng (pl_f p) (pl_args p) (pl_body p) (pl_base p) (pl_k p)) as X. fold (pl_code m sizes sx ng p) in X. lia.
    - intros f g I J. destruct (IF f I) as (p & Ip & ->). destruct (IF g J) as (p' & Jp & ->). cbn [f_start f_end placed_function].
      destruct (layout_disjoint _ _ _ _ _ _ _ _ _ Ip Jp) as [->|D]; [left; reflexivity|right; exact D].
    - intros f I. destruct (IF f I) as (p & Ip & ->). eexists _, _. apply (place_disciplined p Ip).
  Qed.
End Verify.
