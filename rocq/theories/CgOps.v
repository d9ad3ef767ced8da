(** Proof support: the operands of generated instructions are 32-bit numbers and
    jumps lead to instructions of the same function. *)
From Coq Require Import ZArith List Bool Lia ZifyBool.
From Verif Require Import Base BaseFacts F32 Instr InstrSpec InstrProofs Program VM VmSpec VmFacts Ast Sema SemaSpec SemaFacts
  Codegen CgCode CgSlots CgSpec.
Import ListNotations.
Open Scope Z_scope.

Lemma small_i32 z : 0 <= z <= i32_max -> in_i32 z = true.
Proof. unfold in_i32, i32_min, i32_max. lia. Qed.
Lemma sw0 i : operands i = 0 -> swidth (SI (I0 i)) = 1.
Proof. destruct i; intros H; first [discriminate H|reflexivity]. Qed.
Lemma sw1 i v : operands i = 1 -> swidth (SI (I1 i v)) = 5.
Proof.
  intros H. unfold swidth, sbytes, linked_ins, enc, emit, emit1.
  destruct i; first [discriminate H|rewrite zlen_cons, le32_len; reflexivity].
Qed.
Lemma sw2 i v w : operands i = 2 -> swidth (SI (I2 i v w)) = 9.
Proof.
  intros H. unfold swidth, sbytes, linked_ins, enc, emit, emit2.
  destruct i; first [discriminate H|rewrite zlen_cons, zlen_app, !le32_len; reflexivity].
Qed.
Lemma sw_call n f : swidth (SCall n f) = 9.
Proof. exact (sw2 INS_CALL n 0 eq_refl). Qed.
Lemma sw_fn f : swidth (SFn f) = 5.
Proof. exact (sw1 INS_NEW_FUNC 0 eq_refl). Qed.
Lemma swidth_nonneg x : 0 <= swidth x. Proof. unfold swidth. apply zlen_nonneg. Qed.
Ltac width := first [rewrite sw0 by reflexivity|rewrite sw1 by reflexivity|rewrite sw2 by reflexivity|rewrite sw_call|rewrite sw_fn]; lia.

Section Ops.
  Variable m : slots.
  Variable sx : bytes -> Z.
  Variable fa : fdecl -> Z.
  Hypothesis Hm : forall id, in_i32 (assoc m id) = true.
  Hypothesis Hx : forall x, in_i32 (sx x) = true.
  Hypothesis Hf : forall f, in_i32 (fa f) = true.

  Definition W (x : sins) : Prop := ins_wf (linked_ins fa x).
  (** the same but for the targets of jumps *)
  Definition W0 (x : sins) : Prop := jump_target (linked_ins fa x) = None -> W x.

  Lemma W_getd d : W (getd m d).
  Proof. unfold W, getd. destruct (vd_kind d); cbn; auto. Qed.
  Lemma W_setd d : W (setd m d).
  Proof. unfold W, setd. destruct (vd_kind d); cbn; auto. Qed.
  Lemma W_int v : in_i32 v = true -> W (SI (I1 INS_NEW_INT v)). Proof. cbn; auto. Qed.
  Lemma W_bin o : W (SI (I0 (ins_of_bin o))). Proof. destruct o; reflexivity. Qed.
  Lemma W_un o : W (SI (I0 (ins_of_un o))). Proof. destruct o; reflexivity. Qed.
  Lemma jt_getd d : jump_target (linked_ins fa (getd m d)) = None.
  Proof. unfold getd. destruct (vd_kind d); reflexivity. Qed.
  Lemma jt_setd d : jump_target (linked_ins fa (setd m d)) = None.
  Proof. unfold setd. destruct (vd_kind d); reflexivity. Qed.

  Lemma clen_cexpr e : forall k, 1 <= clen (cexpr m sx e k).
  Proof.
    assert (A : forall x y, 1 <= swidth y -> 1 <= clen (x ++ [y])).
    { intros x y L. rewrite clen_app, clen1. pose proof (clen_nonneg x). lia. }
    destruct e as [i v l|f l|s l|l|[d|f] l|d l x lx|l es|l a i|l f es|o l a b|o l a]; intros k; cbn [cexpr];
      try (rewrite clen1; width); try (apply A; width).
    - rewrite clen1. unfold getd. destruct (vd_kind d); width.
    - rewrite clen1. destruct (fd_sys f); width.
    - apply (A [getd m d]). width.
    - rewrite app_assoc. apply A. width.
    - destruct f as [| | | |[|fd]| | | | | |]; try (rewrite app_assoc; apply A; width).
      apply A. destruct (fd_sys fd); width.
    - rewrite app_assoc. apply A. destruct o; width.
    - apply A. destruct o; width.
  Qed.
  Lemma clen_clist es : forall k, zlen es <= clen (clist (cexpr m sx) es k).
  Proof.
    induction es as [|e es IH]; intros k; cbn [clist]; [rewrite zlen_nil; apply clen_nonneg|].
    rewrite zlen_cons, clen_app. pose proof (clen_cexpr e k). specialize (IH (k + zlen (estrs e))). lia.
  Qed.

  Lemma wf_expr e : forall k, Forall machine_literal (inside e) -> 0 <= k -> k + zlen (estrs e) <= i32_max ->
    clen (cexpr m sx e k) <= i32_max -> Forall W (cexpr m sx e k).
  Proof.
    assert (ES : forall es, Forall (fun e0 => forall k, Forall machine_literal (inside e0) -> 0 <= k -> k + zlen (estrs e0) <= i32_max ->
              clen (cexpr m sx e0 k) <= i32_max -> Forall W (cexpr m sx e0 k)) es ->
            forall k, Forall machine_literal (flat_map inside es) -> 0 <= k -> k + zlen (flat_map estrs es) <= i32_max ->
            clen (clist (cexpr m sx) es k) <= i32_max -> Forall W (clist (cexpr m sx) es k)).
    { induction 1 as [|e1 es H F IH]; intros k L K1 K2 C; cbn [clist flat_map] in *; [constructor|].
      apply Forall_app in L. destruct L as [L1 L2]. rewrite zlen_app in K2. rewrite clen_app in C.
      pose proof (clen_nonneg (cexpr m sx e1 k)). pose proof (clen_nonneg (clist (cexpr m sx) es (k + zlen (estrs e1)))).
      pose proof (zlen_nonneg (estrs e1)). pose proof (zlen_nonneg (flat_map estrs es)).
      apply Forall_app. split; [apply H; auto; lia|apply IH; auto; lia]. }
    induction e using rexpr_nested; intros k L K1 K2 C; cbn [cexpr estrs inside] in *.
    - constructor; [|constructor]. apply W_int. inversion L; assumption.
    - constructor; [|constructor]. split; [reflexivity|apply to_i32_range].
    - constructor; [|constructor]. split; [reflexivity|]. rewrite zlen_cons, zlen_nil in K2. apply small_i32. lia.
    - constructor; [reflexivity|constructor].
    - destruct x as [d|f]; (constructor; [|constructor]); [apply W_getd|].
      destruct (fd_sys f); split; (reflexivity||auto).
    - constructor; [apply W_getd|]. constructor; [|constructor]. split; [reflexivity|]. rewrite zlen_cons, zlen_nil in K2. apply small_i32. lia.
    - inversion L as [|? ? _ L1]; subst. rewrite clen_app, clen1 in C. rewrite sw1 in C by reflexivity.
      pose proof (clen_clist es k) as CL. pose proof (zlen_nonneg es).
      apply Forall_app. split; [apply ES; auto; lia|]. constructor; [|constructor]. split; [reflexivity|]. apply small_i32. lia.
    - inversion L as [|? ? _ L1]; subst. apply Forall_app in L1. destruct L1 as [L1 L2]. rewrite !clen_app, zlen_app in *.
      pose proof (clen_nonneg (cexpr m sx e2 k)). pose proof (clen_nonneg (cexpr m sx e1 (k + zlen (estrs e2)))).
      pose proof (clen_nonneg [SI (I0 INS_DEREF)]). pose proof (zlen_nonneg (estrs e1)). pose proof (zlen_nonneg (estrs e2)).
      apply Forall_app. split; [apply IHe2; auto; lia|]. apply Forall_app. split; [apply IHe1; auto; lia|].
      constructor; [reflexivity|constructor].
    - inversion L as [|? ? _ L1]; subst. apply Forall_app in L1. destruct L1 as [L1 L2]. rewrite clen_app, zlen_app in *.
      pose proof (clen_clist es k) as CL. pose proof (zlen_nonneg es). pose proof (zlen_nonneg (estrs e)). pose proof (zlen_nonneg (flat_map estrs es)).
      set (rest := match e with RIdent (DF fd) _ => _ | _ => _ end) in *. pose proof (clen_nonneg rest) as CR.
      apply Forall_app. split; [apply ES; auto; lia|].
      assert (G : in_i32 (zlen es) = true) by (apply small_i32; lia).
      assert (D : Forall W (cexpr m sx e (k + zlen (flat_map estrs es)) ++ [SI (I1 INS_ICALL (zlen es))]) \/
                  exists fd l0, e = RIdent (DF fd) l0).
      { destruct e as [| | | |[|fd]| | | | | |]; try (right; eauto; fail);
          (left; unfold rest in C; rewrite clen_app in C; 
           match type of C with context [clen [?i]] => pose proof (clen_nonneg [i]) end;
           apply Forall_app; split; [apply IHe; auto; lia|constructor; [split; [reflexivity|exact G]|constructor]]). }
      destruct D as [D|(fd & l0 & ->)].
      + unfold rest. destruct e as [| | | |[|fd]| | | | | |]; try exact D.
        destruct (fd_sys fd); (constructor; [|constructor]); cbn; auto.
      + unfold rest. destruct (fd_sys fd); (constructor; [|constructor]); cbn; auto.
    - inversion L as [|? ? _ L1]; subst. apply Forall_app in L1. destruct L1 as [L1 L2]. rewrite !clen_app, zlen_app in *.
      pose proof (clen_nonneg (cexpr m sx e1 k)). pose proof (clen_nonneg (cexpr m sx e2 (k + zlen (estrs e1)))).
      pose proof (clen_nonneg [SI (I0 (ins_of_bin o))]). pose proof (zlen_nonneg (estrs e1)). pose proof (zlen_nonneg (estrs e2)).
      apply Forall_app. split; [apply IHe1; auto; lia|]. apply Forall_app. split; [apply IHe2; auto; lia|].
      constructor; [apply W_bin|constructor].
    - inversion L as [|? ? _ L1]; subst. rewrite !clen_app in *.
      pose proof (clen_nonneg [SI (I0 (ins_of_un o))]).
      apply Forall_app. split; [apply IHe; auto; lia|]. constructor; [apply W_un|constructor].
  Qed.

  Definition NJ (x : sins) : Prop := jump_target (linked_ins fa x) = None.
  Lemma nj_expr e : forall k, Forall NJ (cexpr m sx e k).
  Proof.
    assert (ES : forall es, Forall (fun e0 => forall k, Forall NJ (cexpr m sx e0 k)) es -> forall k, Forall NJ (clist (cexpr m sx) es k)).
    { induction 1 as [|e1 es H F IH]; intros k; cbn [clist]; [constructor|]. apply Forall_app. auto. }
    assert (O : forall x, NJ x -> Forall NJ [x]) by (intros; constructor; [assumption|constructor]).
    induction e using rexpr_nested; intros k; cbn [cexpr]; try (apply O; reflexivity).
    - destruct x as [d|f]; apply O; [apply jt_getd|destruct (fd_sys f); reflexivity].
    - constructor; [apply jt_getd|apply O; reflexivity].
    - apply Forall_app. split; [apply ES; assumption|apply O; reflexivity].
    - repeat (apply Forall_app; split; [auto|]). apply O; reflexivity.
    - apply Forall_app; split; [apply ES; assumption|].
      destruct e as [| | | |[|fd]| | | | | |]; try (apply Forall_app; split; [auto|apply O; reflexivity]).
      apply O. destruct (fd_sys fd); reflexivity.
    - repeat (apply Forall_app; split; [auto|]). apply O. destruct o; reflexivity.
    - repeat (apply Forall_app; split; [auto|]). apply O. destruct o; reflexivity.
  Qed.

  (** ** Statements *)
  Variable sp : Z.
  Hypothesis Hsp : in_i32 sp = true.
  Notation cstmt := (cstmt m sx sp).
  Notation cblock := (cblock m sx sp).
  Notation coblock := (coblock m sx sp).

  Definition lits (x : rstmt) : Prop := Forall machine_literal (flat_map inside (exprs_stmt x)).
  Definition Wst (x : rstmt) : Prop := forall base k, lits x -> 0 <= k -> k + zlen (sstrs x) <= i32_max ->
    clen (cstmt x base k) <= i32_max -> Forall W0 (cstmt x base k).
  Lemma W_W0 l : Forall W l -> Forall W0 l.
  Proof. apply Forall_impl. intros x H _. exact H. Qed.
  Lemma W0_one x : W x -> Forall W0 [x].
  Proof. intros H. constructor; [intros _; exact H|constructor]. Qed.
  Lemma W0_jump i t : i = INS_JMP \/ i = INS_TJMP \/ i = INS_FJMP -> Forall W0 [SI (I1 i t)].
  Proof. intros H. constructor; [|constructor]. intros X. destruct H as [->|[->| ->]]; discriminate X. Qed.
  Lemma W0_expr e k : Forall machine_literal (inside e) -> 0 <= k -> k + zlen (estrs e) <= i32_max ->
    clen (cexpr m sx e k) <= i32_max -> Forall W0 (cexpr m sx e k).
  Proof. intros. apply W_W0, wf_expr; assumption. Qed.
  Lemma Forall_cons_app {A} (P : A -> Prop) x l : Forall P [x] -> Forall P l -> Forall P (x :: l).
  Proof. intros H1 H2. inversion H1. constructor; assumption. Qed.
  Lemma lits_app a b : Forall machine_literal (flat_map inside (a ++ b)) ->
    Forall machine_literal (flat_map inside a) /\ Forall machine_literal (flat_map inside b).
  Proof. rewrite flat_map_app. apply Forall_app. Qed.
  Lemma lits_cons a b : Forall machine_literal (flat_map inside (a :: b)) ->
    Forall machine_literal (inside a) /\ Forall machine_literal (flat_map inside b).
  Proof. apply Forall_app. Qed.

  Lemma cblock_cons x b base k : cblock (x :: b) base k = cstmt x base k ++ cblock b (base + clen (cstmt x base k)) (k + zlen (sstrs x)).
  Proof. reflexivity. Qed.
  Lemma cstmt_if l c t f base k : cstmt (RIf l c t f) base k =
      (let cc := cexpr m sx c k in let k1 := k + zlen (estrs c) in let b1 := base + clen cc + 5 in let ct := coblock t b1 k1 in
       match f with
       | None => cc ++ [SI (I1 INS_FJMP (b1 + clen ct))] ++ ct
       | Some _ => let L0 := b1 + clen ct + 5 in let cf := coblock f L0 (k1 + zlen (ostrs t)) in
           cc ++ [SI (I1 INS_FJMP L0)] ++ ct ++ [SI (I1 INS_JMP (L0 + clen cf))] ++ cf
       end).
  Proof. reflexivity. Qed.
  Lemma cstmt_while l c b base k : cstmt (RWhile l c b) base k =
    (let cb := coblock b (base + 5) k in
     [SI (I1 INS_JMP (base + 5 + clen cb))] ++ cb ++ cexpr m sx c (k + zlen (ostrs b)) ++ [SI (I1 INS_TJMP (base + 5))]).
  Proof. reflexivity. Qed.
  Lemma cstmt_for l d lx a b body base k : cstmt (RFor l d lx a b body) base k =
    (let ca := cexpr m sx a k ++ [setd m d] in
     let k1 := k + zlen (estrs a) in
     let L0 := base + clen ca + 5 in
     let cb := cblock body L0 k1 ++ [getd m d; SI (I1 INS_NEW_INT 1); SI (I0 INS_ADD); setd m d] in
     ca ++ [SI (I1 INS_JMP (L0 + clen cb))] ++ cb ++
     [getd m d] ++ cexpr m sx b (k1 + zlen (flat_map sstrs body)) ++ [SI (I0 INS_LT); SI (I1 INS_TJMP L0)]).
  Proof. reflexivity. Qed.
  Lemma sstrs_if l c t f : sstrs (RIf l c t f) = estrs c ++ ostrs t ++ ostrs f.
  Proof. reflexivity. Qed.
  Lemma sstrs_while l c b : sstrs (RWhile l c b) = ostrs b ++ estrs c.
  Proof. reflexivity. Qed.

  Ltac nonneg := repeat match goal with
    | H : context [clen ?l] |- _ => lazymatch goal with _ : 0 <= clen l |- _ => fail | _ => pose proof (clen_nonneg l) end
    | H : context [zlen ?l] |- _ => lazymatch goal with _ : 0 <= zlen l |- _ => fail | _ => pose proof (zlen_nonneg l) end
    end.
  Ltac bound := nonneg; lia.

  Lemma wf_block b : Forall Wst b -> forall base k, Forall machine_literal (flat_map inside (flat_map exprs_stmt b)) ->
    0 <= k -> k + zlen (flat_map sstrs b) <= i32_max ->
    clen (cblock b base k) <= i32_max -> Forall W0 (cblock b base k).
  Proof.
    induction 1 as [|x b H F IH]; intros base k L K1 K2 C; [constructor|]. cbn [flat_map] in *. rewrite cblock_cons in *.
    apply lits_app in L. destruct L as [L1 L2]. rewrite clen_app in C. rewrite zlen_app in K2.
    apply Forall_app. split; [apply H; auto; bound|apply IH; auto; bound].
  Qed.
  Lemma wf_oblock o : oall Wst o -> forall base k,
    Forall machine_literal (flat_map inside (match o with Some b => flat_map exprs_stmt b | None => [] end)) ->
    0 <= k -> k + zlen (ostrs o) <= i32_max ->
    clen (coblock o base k) <= i32_max -> Forall W0 (coblock o base k).
  Proof. destruct o; intros; [apply wf_block; assumption|constructor]. Qed.

  Lemma wf_stmt x : Wst x.
  Proof.
    induction x using rstmt_nested; intros base k L K1 K2 C; unfold lits in L; cbn [exprs_stmt] in L.
    - cbn [CgCode.cstmt sstrs] in *. destruct (vd_kind d); try constructor. destruct (vd_const d); [constructor|].
      destruct e as [e|]; [|constructor]. apply lits_cons in L. destruct L as [L _]. rewrite clen_app in C.
      apply Forall_app. split; [apply W0_expr; auto; bound|]. apply W0_one. split; [reflexivity|apply Hm].
    - cbn [CgCode.cstmt sstrs] in *. apply lits_cons in L. destruct L as [L _]. rewrite clen_app in C.
      apply Forall_app. split; [apply W0_expr; auto; bound|]. apply W0_one, W_setd.
    - cbn [CgCode.cstmt sstrs] in *. apply lits_cons in L. destruct L as [L _]. rewrite clen_app in C. rewrite zlen_app, zlen_cons, zlen_nil in K2.
      apply Forall_app. split; [apply W0_expr; auto; bound|]. apply Forall_cons_app; [apply W0_one, W_getd|]. apply W0_one.
      split; [reflexivity|]. apply small_i32. bound.
    - cbn [CgCode.cstmt sstrs] in *. apply lits_cons in L. destruct L as [L1 L]. apply lits_cons in L. destruct L as [L2 _].
      rewrite !clen_app in C. rewrite zlen_app in K2.
      apply Forall_app. split; [apply W0_expr; auto; bound|]. apply Forall_app. split; [apply W0_expr; auto; bound|].
      apply Forall_cons_app; [apply W0_one, W_getd|]. apply W0_one. reflexivity.
    - change (cstmt (RCallS l f es) base k) with (cexpr m sx (RCall l f es) k ++ [SI (I1 INS_POP 1)]) in *.
      change (sstrs (RCallS l f es)) with (estrs (RCall l f es)) in K2. apply lits_cons in L. destruct L as [L _]. rewrite clen_app in C.
      apply Forall_app. split; [apply W0_expr; auto; bound|]. apply W0_one. split; reflexivity.
    - rewrite sstrs_if in K2. rewrite cstmt_if in *. cbv zeta in *.
      apply lits_cons in L. destruct L as [L1 L]. apply lits_app in L. destruct L as [L2 L3]. rewrite !zlen_app in K2.
      destruct f as [f|].
      + rewrite !clen_app in C.
        apply Forall_app. split; [apply W0_expr; auto; bound|]. apply Forall_app. split; [apply W0_jump; auto|].
        apply Forall_app. split; [apply wf_oblock; auto; bound|]. apply Forall_app. split; [apply W0_jump; auto|].
        apply wf_oblock; auto; bound.
      + rewrite !clen_app in C.
        apply Forall_app. split; [apply W0_expr; auto; bound|]. apply Forall_app. split; [apply W0_jump; auto|].
        apply wf_oblock; auto; bound.
    - rewrite sstrs_while in K2. rewrite cstmt_while in *. cbv zeta in *. apply lits_cons in L. destruct L as [L1 L2].
      rewrite zlen_app in K2. rewrite !clen_app in C.
      apply Forall_app. split; [apply W0_jump; auto|]. apply Forall_app. split; [apply wf_oblock; auto; bound|].
      apply Forall_app. split; [apply W0_expr; auto; bound|]. apply W0_jump; auto.
    - change (sstrs (RFor l d lx a b body)) with (estrs a ++ flat_map sstrs body ++ estrs b) in K2.
      rewrite cstmt_for in *. cbv zeta in *. apply lits_cons in L. destruct L as [L1 L]. apply lits_cons in L. destruct L as [L2 L3].
      rewrite !zlen_app in K2. repeat rewrite clen_app in C. repeat rewrite clen_app.
      apply Forall_app. split; [apply Forall_app; split; [apply W0_expr; auto; bound|apply W0_one, W_setd]|].
      apply Forall_app. split; [apply W0_jump; auto|]. apply Forall_app. split.
      { apply Forall_app. split; [apply wf_block; auto; [bound|bound|bound]|]. apply W_W0. repeat (constructor; [first [apply W_getd|apply W_setd|reflexivity|split; reflexivity]|]). constructor. }
      apply Forall_app. split; [apply W0_one, W_getd|]. apply Forall_app. split; [apply W0_expr; auto; bound|].
      apply Forall_cons_app; [apply W0_one; reflexivity|apply W0_jump; auto].
    - cbn [CgCode.cstmt sstrs] in *. rewrite clen_app in C. apply Forall_app. split.
      + destruct e as [e|]; [|apply W0_one; reflexivity]. apply lits_cons in L. destruct L as [L _]. apply W0_expr; auto; bound.
      + apply W0_one. split; [reflexivity|apply Hsp].
  Qed.

  (** ** Where jumps lead *)
  Definition mark (base : Z) (l : list sins) (t : Z) : Prop := exists p q, l = p ++ q /\ t = base + clen p.
  Lemma mark_here base l t : t = base -> mark base l t.
  Proof. intros ->. exists [], l. split; [reflexivity|]. rewrite clen_nil. lia. Qed.
  Lemma mark_end base l t : t = base + clen l -> mark base l t.
  Proof. intros ->. exists l, []. split; [now rewrite app_nil_r|reflexivity]. Qed.
  Lemma mark_skip base a l t : mark (base + clen a) l t -> mark base (a ++ l) t.
  Proof. intros (p & q & -> & ->). exists (a ++ p), q. split; [now rewrite app_assoc|]. rewrite clen_app. lia. Qed.
  Lemma mark_more base l b t : mark base l t -> mark base (l ++ b) t.
  Proof. intros (p & q & -> & ->). exists p, (q ++ b). split; [now rewrite app_assoc|reflexivity]. Qed.
  Definition jto (B : Z) (L : list sins) (l : list sins) : Prop :=
    Forall (fun i => forall t, jump_target (linked_ins fa i) = Some t -> mark B L t) l.
  Lemma jto_nj B L l : Forall NJ l -> jto B L l.
  Proof. apply Forall_impl. intros x N t E. rewrite N in E. discriminate. Qed.
  Lemma jto_app B L a b : jto B L a -> jto B L b -> jto B L (a ++ b).
  Proof. intros. apply Forall_app. auto. Qed.
  Lemma jto_one B L i t : mark B L t -> jto B L [SI (I1 i t)].
  Proof. intros H. constructor; [|constructor]. intros t'. cbn. destruct i; intros E; inversion E; subst; exact H. Qed.
  Lemma jto_skip B a L l : jto (B + clen a) L l -> jto B (a ++ L) l.
  Proof. apply Forall_impl. intros x H t E. apply mark_skip, H, E. Qed.
  Lemma jto_more B L b l : jto B L l -> jto B (L ++ b) l.
  Proof. apply Forall_impl. intros x H t E. apply mark_more, H, E. Qed.
  Lemma jto_at B B' L l : B = B' -> jto B' L l -> jto B L l.
  Proof. intros ->. auto. Qed.
  Lemma nj_get d : NJ (getd m d). Proof. apply jt_getd. Qed.
  Lemma nj_set d : NJ (setd m d). Proof. apply jt_setd. Qed.
  Hint Resolve nj_expr nj_get nj_set : nj.
  Ltac nj := repeat first [apply nj_expr|apply Forall_app; split|apply Forall_cons|apply Forall_nil]; auto with nj; try reflexivity.

  Definition Jst (x : rstmt) : Prop := forall base k, jto base (cstmt x base k) (cstmt x base k).
  Lemma jto_block b : Forall Jst b -> forall base k, jto base (cblock b base k) (cblock b base k).
  Proof.
    induction 1 as [|x b H F IH]; intros base k; [constructor|]. rewrite cblock_cons.
    apply jto_app; [apply jto_more, H|apply jto_skip, IH].
  Qed.
  Lemma jto_oblock o : oall Jst o -> forall base k, jto base (coblock o base k) (coblock o base k).
  Proof. destruct o; intros; [apply jto_block; assumption|constructor]. Qed.
  Lemma jto_stmt x : Jst x.
  Proof.
    assert (J5 : forall i t, operands i = 1 -> clen [SI (I1 i t)] = 5) by (intros; rewrite clen1; apply sw1; assumption).
    induction x using rstmt_nested; intros base k.
    - apply jto_nj. cbn [CgCode.cstmt]. destruct (vd_kind d); try constructor. destruct (vd_const d); [constructor|]. destruct e; nj.
    - apply jto_nj. cbn [CgCode.cstmt]. nj.
    - apply jto_nj. cbn [CgCode.cstmt]. nj.
    - apply jto_nj. cbn [CgCode.cstmt]. nj.
    - apply jto_nj. change (cstmt (RCallS l f es) base k) with (cexpr m sx (RCall l f es) k ++ [SI (I1 INS_POP 1)]). apply Forall_app. split; [apply nj_expr|nj].
    - rewrite cstmt_if. cbv zeta. destruct f as [f|].
      + set (cc := cexpr m sx c k). set (ct := coblock t _ _). set (cf := coblock (Some f) _ _).
        set (j1 := [SI (I1 INS_FJMP _)]). set (j2 := [SI (I1 INS_JMP _)]).
        assert (J1 : clen j1 = 5) by (apply J5; reflexivity). assert (J2 : clen j2 = 5) by (apply J5; reflexivity).
        apply jto_app; [apply jto_nj; nj|]. apply jto_app.
        { apply jto_one. apply mark_skip, mark_skip, mark_skip, mark_skip, mark_here. lia. }
        apply jto_app. { apply jto_skip, jto_skip, jto_more. eapply jto_at; [|apply jto_oblock; assumption]. lia. }
        apply jto_app. { apply jto_one. apply mark_end. rewrite !clen_app. lia. }
        apply jto_skip, jto_skip, jto_skip, jto_skip. eapply jto_at; [|apply (jto_oblock (Some f)); assumption]. fold ct. lia.
      + set (cc := cexpr m sx c k). set (ct := coblock t _ _). set (j1 := [SI (I1 INS_FJMP _)]).
        assert (J1 : clen j1 = 5) by (apply J5; reflexivity).
        apply jto_app; [apply jto_nj; nj|]. apply jto_app.
        { apply jto_one. apply mark_end. rewrite !clen_app. lia. }
        apply jto_skip, jto_skip. eapply jto_at; [|apply jto_oblock; assumption]. lia.
    - rewrite cstmt_while. cbv zeta. set (cb := coblock b _ _). set (cc := cexpr m sx c _). set (j1 := [SI (I1 INS_JMP _)]). set (j2 := [SI (I1 INS_TJMP _)]).
      assert (J1 : clen j1 = 5) by (apply J5; reflexivity).
      apply jto_app. { apply jto_one. apply mark_skip, mark_skip, mark_here. lia. }
      apply jto_app. { apply jto_skip, jto_more. eapply jto_at; [|apply jto_oblock; assumption]. lia. }
      apply jto_app; [apply jto_nj; nj|]. apply jto_one. apply mark_skip, mark_here. lia.
    - rewrite cstmt_for. cbv zeta. set (ca := cexpr m sx a k ++ _). set (cb := cblock body _ _). set (cc := cexpr m sx b _).
      set (inc := [getd m d; SI (I1 INS_NEW_INT 1); SI (I0 INS_ADD); setd m d]).
      set (j1 := [SI (I1 INS_JMP _)]). assert (J1 : clen j1 = 5) by (apply J5; reflexivity).
      apply jto_app; [apply jto_nj; unfold ca; nj|]. apply jto_app. { apply jto_one. apply mark_skip, mark_skip, mark_skip, mark_here. lia. }
      apply jto_app.
      { apply jto_app; [|apply jto_nj; unfold inc; nj]. apply jto_skip, jto_skip, jto_more, jto_more. eapply jto_at; [|apply jto_block; assumption]. lia. }
      apply jto_app; [apply jto_nj; nj|]. apply jto_app; [apply jto_nj; nj|].
      apply Forall_cons_app; [apply jto_nj; nj|]. apply jto_one. apply mark_skip, mark_skip, mark_here. lia.
    - apply jto_nj. cbn [CgCode.cstmt]. destruct e; nj.
  Qed.
  Lemma jump_block b base k : jto base (cblock b base k) (cblock b base k).
  Proof. apply jto_block, Forall_forall. intros. apply jto_stmt. Qed.
End Ops.
