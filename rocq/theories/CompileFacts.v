(** Proofs about which analysed programs the code generator accepts. *)
From Coq Require Import ZArith List Bool Lia String ZifyBool.
From Verif Require Import Base BaseFacts F32 Instr Program Ast Sema SemaSpec SemaFacts ConstFacts Optimize OptFacts
  Codegen SrcSem CgCode CgSpec BuildSpec CgWell CompileSpec.
Import ListNotations.
Open Scope list_scope.
Open Scope Z_scope.

(** ** Growing programs *)
Definition fixok (s : cg) : Prop :=
  Forall (fun x => fd_line (fst x) <> None /\ 0 <= snd x /\ snd x + 4 <= pos s) (g_fix s).
Record grow (s s' : cg) : Prop := Grow {
  gr_pos : pos s <= pos s';
  gr_sys : g_sys s' = g_sys s;
  gr_funs : map f_name (g_funs s') = map f_name (g_funs s);
  gr_fix : fixok s -> fixok s'
}.
Lemma grow_refl s : grow s s.
Proof. constructor; auto. lia. Qed.
Lemma grow_trans a b c : grow a b -> grow b c -> grow a c.
Proof. intros [A1 A2 A3 A4] [B1 B2 B3 B4]. constructor; auto; [lia|congruence|congruence]. Qed.
Definition outcome (b : bool) (s : cg) (r : res cg) : Prop :=
  if b then exists s', r = Ok s' /\ grow s s' else r = Stuck SAssert.
Lemma out_ok s s' : grow s s' -> outcome true s (Ok s').
Proof. exists s'. auto. Qed.
Lemma out_bind b1 b2 b s m k : outcome b1 s m -> b = b1 && b2 ->
  (forall s1, m = Ok s1 -> grow s s1 -> outcome b2 s1 (k s1)) -> outcome b s (bind m k).
Proof.
  intros H -> K. destruct b1; cbn [andb outcome] in *; [|rewrite H; reflexivity].
  destruct H as (s1 & -> & G). cbn [bind]. specialize (K s1 eq_refl G). destruct b2; cbn [outcome] in *; [|exact K].
  destruct K as (s2 & -> & G2). exists s2. split; [reflexivity|]. eapply grow_trans; eassumption.
Qed.
Lemma out_pre b s s1 r : grow s s1 -> outcome b s1 r -> outcome b s r.
Proof. intros G. destruct b; cbn [outcome]; [|auto]. intros (s2 & -> & G2). exists s2. split; [reflexivity|eapply grow_trans; eassumption]. Qed.

Lemma fixok_longer s s' : pos s <= pos s' -> g_fix s' = g_fix s -> fixok s -> fixok s'.
Proof. unfold fixok. intros L -> H. eapply Forall_impl; [|exact H]. cbv beta. intros x (A & B & C). repeat split; auto. lia. Qed.
Lemma put_out x t s b : emit x = Ok b -> outcome true s (put x t s).
Proof.
  intros E. unfold put. rewrite E. cbn [bind]. apply out_ok. constructor; cbn [g_sys g_funs g_fix]; auto.
  - unfold pos. cbn [g_code]. rewrite zlen_app. pose proof (zlen_nonneg b). lia.
  - apply fixok_longer; [|reflexivity]. unfold pos. cbn [g_code]. rewrite zlen_app. pose proof (zlen_nonneg b). lia.
Qed.
Ltac put1 := eapply put_out; cbn [emit]; reflexivity.
Lemma patch_out a v s : 0 <= a -> a + 4 <= pos s -> outcome true s (patch a v s).
Proof.
  intros A B. unfold patch, apply_fixup. unfold pos in B. replace ((0 <=? a) && (a + 4 <=? zlen (g_code s))) with true by lia. cbn [bind].
  assert (L : zlen (zfirstn a (g_code s) ++ le32 v ++ zskipn (a + 4) (g_code s)) = zlen (g_code s)).
  { rewrite !zlen_app, zlen_zfirstn, zlen_zskipn by lia. change (zlen (le32 v)) with 4. lia. }
  apply out_ok. constructor; cbn [g_sys g_funs]; auto.
  - unfold pos. cbn [g_code]. lia.
  - apply fixok_longer; [|reflexivity]. unfold pos. cbn [g_code]. lia.
Qed.
Lemma jump_pos op t s s' : is_jump op -> put (I1 op 0) t s = Ok s' -> 5 <= pos s' /\ pos s' = pos s + 5.
Proof. intros J E. apply (adds_jump _ _ _ _ J) in E. destruct E as [_ E]. unfold pos in *. pose proof (zlen_nonneg (g_code s)). lia. Qed.
Lemma add_string_grow x s i s' : add_string x s = (i, s') -> grow s s'.
Proof. unfold add_string. intros E. inversion E; subst. constructor; cbn [g_sys g_funs]; auto. unfold pos. cbn [g_code]. lia. Qed.
Lemma add_sys_grow x s i s' : find_syscall (g_sys s) x 0 <> None -> add_sys x s = (i, s') -> grow s s'.
Proof.
  unfold add_sys, add_syscall. destruct (find_syscall (g_sys s) x 0) as [j|] eqn:F; intros N E; [|congruence].
  inversion E; subst; constructor; cbn [g_sys g_funs]; auto. unfold pos; cbn [g_code]; lia.
Qed.
Lemma add_fix_grow x f t s s1 : put x t s = Ok s1 -> 4 <= pos s1 -> fd_line f <> None -> grow s s1 -> grow s (add_fix f s1).
Proof.
  intros P L N [G1 G2 G3 G4]. constructor; cbn [add_fix g_sys g_funs]; auto. intros K. specialize (G4 K).
  unfold fixok in *. cbn [add_fix g_fix]. apply Forall_app. split; [exact G4|]. constructor; [|constructor]. cbn [fst snd].
  unfold fixup_at. unfold pos in *. cbn [add_fix g_code]. repeat split; auto; lia.
Qed.

(** ** Expressions *)
Definition nc (d : vdecl) : bool := negb (vd_const d).
Fixpoint clean (e : rexpr) : bool :=
  match e with
  | RIdent (DV d) _ | RMember d _ _ _ => nc d
  | RArray _ es => forallb clean es
  | RIndex _ a i => clean i && clean a
  | RCall _ f es => forallb clean es && clean f
  | RBin _ _ a b => clean a && clean b
  | RUn _ _ a => clean a
  | _ => true
  end.
Section Gen.
  Context (m : slots) (names : list bytes).
  Definition shape (e : rexpr) : Prop :=
    match e with
    | RArray _ es => es <> []
    | RCall _ (RIdent (DF f) _) es => fd_var f = true \/ fd_arity f = List.length es
    | RIdent (DF f) _ => if fd_sys f then In (fd_name f) names else fd_line f <> None
    | _ => True
    end.
  Definition sysok (s : cg) : Prop := forall n, In n names -> find_syscall (g_sys s) n 0 <> None.
  Lemma sysok_grow s s' : grow s s' -> sysok s -> sysok s'.
  Proof. intros G H n I0. rewrite (gr_sys _ _ G). auto. Qed.
  Lemma walk_out {A} (f : A -> cg -> res cg) (ok : A -> bool) l :
    Forall (fun a => forall s, sysok s -> outcome (ok a) s (f a s)) l -> forall s, sysok s -> outcome (forallb ok l) s (walk f l s).
  Proof.
    induction 1 as [|a l Ha Hl IH]; intros s S; cbn [walk forallb]; [apply out_ok, grow_refl|].
    eapply out_bind; [apply Ha; exact S|reflexivity|]. intros s1 _ G. apply IH. eapply sysok_grow; eassumption.
  Qed.
  Lemma get_decl_out d t s : outcome (nc d) s (get_decl m d t s).
  Proof. unfold get_decl, nc. destruct (vd_const d); cbn [negb]; [reflexivity|]. cbn [assert_ bind]. destruct (vd_kind d); put1. Qed.
  Lemma set_decl_out d t s : outcome (nc d) s (set_decl m d t s).
  Proof. unfold set_decl, nc. destruct (vd_const d); cbn [negb]; [reflexivity|]. cbn [assert_ bind]. destruct (vd_kind d); put1. Qed.
  Lemma get_func_out f l t s : shape (RIdent (DF f) l) -> sysok s -> outcome true s (get_func f t s).
  Proof.
    cbn [shape]. unfold get_func. destruct (fd_sys f); intros H S.
    - specialize (S _ H). destruct (find_syscall _ _ _); [put1|congruence].
    - destruct (put_out (I1 INS_NEW_FUNC 0) t s _ eq_refl) as (s1 & E & G). rewrite E. cbn [bind]. apply out_ok.
      eapply add_fix_grow; try eassumption. apply put_adds in E. apply adds_pos in E. unfold pos in *. pose proof (zlen_nonneg (g_code s)).
      rewrite clen1 in E. change (swidth (SI (I1 INS_NEW_FUNC 0))) with 5 in E. lia.
  Qed.
  Lemma gen_exprs_out es : Forall (fun e => Forall shape (inside e) -> forall s, sysok s -> outcome (clean e) s (gen_expr m e s)) es ->
    Forall shape (flat_map inside es) -> forall s, sysok s -> outcome (forallb clean es) s (walk (gen_expr m) es s).
  Proof.
    intros H H2. apply walk_out. rewrite Forall_forall in *. intros e I0. apply H; [exact I0|]. apply Forall_forall.
    intros x I1. apply H2. apply in_flat_map. eauto.
  Qed.
  Lemma gen_expr_out e : Forall shape (inside e) -> forall s, sysok s -> outcome (clean e) s (gen_expr m e s).
  Proof.
    induction e using rexpr_nested; intros H0 st S; cbn [gen_expr clean]; cbn [inside] in H0; inversion H0 as [|? ? Hh Ht]; subst; clear H0.
    - put1.
    - put1.
    - destruct (add_string _ _) as [i s1] eqn:A. eapply out_pre; [eapply add_string_grow; exact A|put1].
    - put1.
    - destruct x as [d|f]; [apply get_decl_out|eapply get_func_out; eassumption].
    - destruct (add_string _ _) as [i s1] eqn:A. eapply out_pre; [eapply add_string_grow; exact A|].
      eapply out_bind; [apply get_decl_out|symmetry; apply andb_true_r|]. intros; put1.
    - eapply out_bind; [apply gen_exprs_out; assumption|symmetry; apply andb_true_r|]. intros s1 _ G.
      assert (C : (0 <? count es) = true). { destruct es; [elim Hh; reflexivity|]. unfold count. rewrite zlen_cons. pose proof (zlen_nonneg es). lia. }
      rewrite C. cbn [assert_ bind]. put1.
    - apply Forall_app in Ht. destruct Ht. eapply out_bind; [apply IHe2; assumption|reflexivity|]. intros s1 _ G1.
      eapply out_bind; [apply IHe1; [assumption|eapply sysok_grow; eassumption]|symmetry; apply andb_true_r|]. intros; put1.
    - apply Forall_app in Ht. destruct Ht as [Hf Hes]. eapply out_bind; [apply gen_exprs_out; assumption|reflexivity|]. intros s1 _ G1.
      pose proof (sysok_grow _ _ G1 S) as S1.
      assert (D : (forall fd lf, e <> RIdent (DF fd) lf) -> outcome (clean e) s1 (s2 <- gen_expr m e s1;; put (I1 INS_ICALL (count es)) (Some l) s2)).
      { intros _. eapply out_bind; [apply IHe; assumption|symmetry; apply andb_true_r|]. intros; put1. }
      destruct e as [| | | |[d|fd] lf| | | | | |]; try (apply D; intros; congruence).
      cbn [shape clean] in *.
      assert (C : fd_var fd || Nat.eqb (fd_arity fd) (List.length es) = true).
      { destruct Hh as [->| ->]; [reflexivity|]. rewrite Nat.eqb_refl. apply orb_true_r. }
      rewrite C. cbn [assert_ bind]. destruct (fd_sys fd) eqn:Sy.
      + destruct (add_sys _ _) as [i s2] eqn:A. eapply out_pre; [eapply add_sys_grow; [|exact A]|put1].
        inversion Hf as [|? ? Hh2 _]; subst. cbn [shape] in Hh2. rewrite Sy in Hh2. apply S1. exact Hh2.
      + inversion Hf as [|? ? Hh2 _]; subst. cbn [shape] in Hh2. rewrite Sy in Hh2.
        destruct (put_out (I2 INS_CALL (count es) 0) (Some l) s1 _ eq_refl) as (s2 & E & G). rewrite E. cbn [bind]. apply out_ok.
        eapply add_fix_grow; try eassumption. apply put_adds in E. apply adds_pos in E. unfold pos in *. pose proof (zlen_nonneg (g_code s1)).
        rewrite clen1 in E. change (swidth (SI (I2 INS_CALL (count es) 0))) with 9 in E. lia.
    - apply Forall_app in Ht. destruct Ht. eapply out_bind; [apply IHe1; assumption|reflexivity|]. intros s1 _ G1.
      eapply out_bind; [apply IHe2; [assumption|eapply sysok_grow; eassumption]|symmetry; apply andb_true_r|]. intros. destruct o; put1.
    - eapply out_bind; [apply IHe; assumption|symmetry; apply andb_true_r|]. intros. destruct o; put1.
  Qed.

  (** ** Statements *)
  Definition shape_stmt (x : rstmt) : Prop :=
    match x with RVar d _ => vd_kind d = KLocal /\ vd_const d = false | _ => True end.
  Definition oclean (o : option rexpr) : bool := match o with Some e => clean e | None => true end.
  Fixpoint clean_s (x : rstmt) : bool :=
    let ob o := match o with Some b => forallb clean_s b | None => true end in
    match x with
    | RVar _ oe | RReturn _ oe => oclean oe
    | RAssign d _ e => clean e && nc d
    | RSetMem d _ _ _ e => clean e && nc d
    | RSetIdx d _ i e => clean e && (clean i && nc d)
    | RCallS _ f es => forallb clean es && clean f
    | RIf _ c t f => clean c && (ob t && ob f)
    | RWhile _ c b => ob b && clean c
    | RFor _ d _ a b body => clean a && (nc d && (forallb clean_s body && clean b))
    end.
  Context (space : Z).
  Definition good_s (x : rstmt) : Prop :=
    Forall shape (flat_map inside (exprs_stmt x)) -> Forall shape_stmt (within x) ->
    forall s, sysok s -> outcome (clean_s x) s (gen_stmt m space x s).
  Lemma gen_block_out b : Forall good_s b ->
    Forall shape (flat_map inside (flat_map exprs_stmt b)) -> Forall shape_stmt (flat_map within b) ->
    forall s, sysok s -> outcome (forallb clean_s b) s (walk (gen_stmt m space) b s).
  Proof.
    intros H H1 H2. apply walk_out. rewrite Forall_forall in *. intros x I0. apply H; [exact I0| |]; apply Forall_forall; intros y I1.
    - apply H1. apply in_flat_map in I1. destruct I1 as (e & A & B). apply in_flat_map. exists e. split; [|exact B]. apply in_flat_map. eauto.
    - apply H2. apply in_flat_map. eauto.
  Qed.
  Definition ob (o : option (list rstmt)) : bool := match o with Some b => forallb clean_s b | None => true end.
  Lemma gen_oblock_out o : oall good_s o -> Forall shape (flat_map inside (oblock_exprs o)) ->
    Forall shape_stmt (match o with Some b => flat_map within b | None => [] end) ->
    forall s, sysok s -> outcome (ob o) s (match o with None => Ok s | Some b => walk (gen_stmt m space) b s end).
  Proof. destruct o; cbn [oall oblock_exprs ob]; intros H H1 H2 s S; [apply gen_block_out; assumption|apply out_ok, grow_refl]. Qed.
  Lemma inside_app a b : Forall shape (flat_map inside (a ++ b)) -> Forall shape (flat_map inside a) /\ Forall shape (flat_map inside b).
  Proof. rewrite flat_map_app. apply Forall_app. Qed.
  Lemma inside_cons a b : Forall shape (flat_map inside (a :: b)) -> Forall shape (inside a) /\ Forall shape (flat_map inside b).
  Proof. cbn [flat_map]. apply Forall_app. Qed.
  Lemma gen_stmt_out x : good_s x.
  Proof.
    induction x using rstmt_nested; intros E0 W s S; cbn [gen_stmt clean_s].
    - (* var *) cbn [within] in W. inversion W as [|? ? KC _]; subst. destruct KC as [K C]. rewrite K, C. cbn [assert_ bind].
      destruct e as [e|]; cbn [oclean]; [|apply out_ok, grow_refl]. apply inside_cons in E0. destruct E0 as [E0 _].
      eapply out_bind; [apply gen_expr_out; assumption|symmetry; apply andb_true_r|]. intros; put1.
    - apply inside_cons in E0. destruct E0 as [E0 _].
      eapply out_bind; [apply gen_expr_out; assumption|reflexivity|]. intros; apply set_decl_out.
    - apply inside_cons in E0. destruct E0 as [E0 _].
      eapply out_bind; [apply gen_expr_out; assumption|reflexivity|]. intros s1 _ G1.
      eapply out_bind; [apply get_decl_out|symmetry; apply andb_true_r|]. intros s2 _ G2.
      destruct (add_string _ _) as [i s3] eqn:A. eapply out_pre; [eapply add_string_grow; exact A|put1].
    - cbn [exprs_stmt] in E0. apply inside_cons in E0. destruct E0 as [Ei E0]. apply inside_cons in E0. destruct E0 as [E0 _].
      eapply out_bind; [apply gen_expr_out; assumption|reflexivity|]. intros s1 _ G1.
      eapply out_bind; [apply gen_expr_out; [assumption|eapply sysok_grow; eassumption]|reflexivity|]. intros s2 _ G2.
      eapply out_bind; [apply get_decl_out|symmetry; apply andb_true_r|]. intros; put1.
    - apply inside_cons in E0. destruct E0 as [E0 _].
      eapply out_bind; [apply (gen_expr_out (RCall l f es)); assumption|symmetry; apply andb_true_r|]. intros; put1.
    - (* if *) cbn [exprs_stmt] in E0. apply inside_cons in E0. destruct E0 as [Ec E0]. apply inside_app in E0. destruct E0 as [Et Ef].
      cbn [within] in W. inversion W as [|? ? _ W']; subst. apply Forall_app in W'. destruct W' as [Wt Wf].
      change (outcome (clean c && (ob t && ob f)) s
        (s1 <- gen_expr m c s;; s2 <- put (I1 INS_FJMP 0) (Some l) s1;;
         s3 <- match t with None => Ok s2 | Some b => walk (gen_stmt m space) b s2 end;;
         match f with
         | None => patch (fixup_at s2) (pos s3) s3
         | Some _ => s4 <- put (I1 INS_JMP 0) None s3;;
            s5 <- match f with None => Ok s4 | Some b => walk (gen_stmt m space) b s4 end;;
            s6 <- patch (fixup_at s2) (pos s4) s5;; patch (fixup_at s4) (pos s5) s6
         end)).
      eapply out_bind; [apply gen_expr_out; assumption|reflexivity|]. intros s1 _ G1.
      eapply (out_bind true); [put1|reflexivity|]. intros s2 P2 G2. pose proof (jump_pos _ _ _ _ is_jump_f P2) as [Q2 _].
      pose proof (sysok_grow _ _ G2 (sysok_grow _ _ G1 S)) as S2.
      eapply out_bind; [apply (gen_oblock_out t); assumption|reflexivity|]. intros s3 _ G3. pose proof (gr_pos _ _ G3).
      destruct f as [f|].
      + eapply (out_bind true); [put1|reflexivity|]. intros s4 P4 G4. pose proof (jump_pos _ _ _ _ is_jump_j P4) as [Q4 _].
        eapply out_bind; [apply (gen_oblock_out (Some f)); try assumption; eapply sysok_grow; [exact G4|]; eapply sysok_grow; eassumption|symmetry; apply andb_true_r|].
        intros s5 _ G5. pose proof (gr_pos _ _ G4). pose proof (gr_pos _ _ G5).
        eapply (out_bind true); [apply patch_out; unfold fixup_at; lia|reflexivity|]. intros s6 _ G6. pose proof (gr_pos _ _ G6).
        apply patch_out; unfold fixup_at; lia.
      + cbn [ob]. apply patch_out; unfold fixup_at; lia.
    - (* while *) cbn [exprs_stmt] in E0. apply inside_cons in E0. destruct E0 as [Ec E0].
      cbn [within] in W. inversion W as [|? ? _ W']; subst.
      eapply (out_bind true); [put1|reflexivity|]. intros s1 P1 G1. pose proof (jump_pos _ _ _ _ is_jump_j P1) as [Q1 _].
      eapply out_bind; [apply (gen_oblock_out b); try assumption; eapply sysok_grow; eassumption|reflexivity|]. intros s2 _ G2.
      eapply out_bind; [apply gen_expr_out; [assumption|eapply sysok_grow; [exact G2|]; eapply sysok_grow; eassumption]|symmetry; apply andb_true_r|].
      intros s3 _ G3.
      eapply (out_bind true); [put1|reflexivity|]. intros s4 P4 G4. pose proof (jump_pos _ _ _ _ is_jump_t P4) as [Q4 _].
      pose proof (gr_pos _ _ G2). pose proof (gr_pos _ _ G3). pose proof (gr_pos _ _ G4).
      eapply (out_bind true); [apply patch_out; unfold fixup_at; lia|reflexivity|]. intros s5 _ G5. pose proof (gr_pos _ _ G5).
      apply patch_out; unfold fixup_at; lia.
    - (* for *) cbn [exprs_stmt] in E0. apply inside_cons in E0. destruct E0 as [Ea E0]. apply inside_cons in E0. destruct E0 as [Eb E0].
      cbn [within] in W. inversion W as [|? ? _ W']; subst.
      eapply out_bind; [apply gen_expr_out; assumption|reflexivity|]. intros s1 _ G1. pose proof (sysok_grow _ _ G1 S) as S1.
      eapply out_bind; [apply set_decl_out|reflexivity|]. intros s2 D2 G2. pose proof (sysok_grow _ _ G2 S1) as S2.
      assert (N : nc d = true). { apply set_decl_adds in D2. unfold nc. now rewrite (proj2 D2). }
      eapply (out_bind true); [put1|reflexivity|]. intros s3 P3 G3. pose proof (jump_pos _ _ _ _ is_jump_j P3) as [Q3 _].
      pose proof (sysok_grow _ _ G3 S2) as S3.
      eapply out_bind; [apply gen_block_out; assumption|reflexivity|]. intros s4 _ G4. pose proof (sysok_grow _ _ G4 S3) as S4.
      eapply (out_bind true); [rewrite <- N; apply get_decl_out|reflexivity|]. intros s5 _ G5.
      eapply (out_bind true); [put1|reflexivity|]. intros s6 _ G6.
      eapply (out_bind true); [put1|reflexivity|]. intros s7 _ G7.
      eapply (out_bind true); [rewrite <- N; apply set_decl_out|reflexivity|]. intros s8 _ G8.
      eapply (out_bind true); [rewrite <- N; apply get_decl_out|reflexivity|]. intros s9 _ G9.
      eapply out_bind; [apply gen_expr_out; [assumption|]|symmetry; apply andb_true_r|].
      { eapply sysok_grow; [|exact S4]. repeat (eapply grow_trans; [eassumption|]). apply grow_refl. }
      intros s10 _ G10. eapply (out_bind true); [put1|reflexivity|]. intros s11 _ G11.
      eapply (out_bind true); [put1|reflexivity|]. intros s12 P12 G12. pose proof (jump_pos _ _ _ _ is_jump_t P12) as [Q12 _].
      pose proof (gr_pos _ _ G4). pose proof (gr_pos _ _ G5). pose proof (gr_pos _ _ G6). pose proof (gr_pos _ _ G7). pose proof (gr_pos _ _ G8).
      pose proof (gr_pos _ _ G9). pose proof (gr_pos _ _ G10). pose proof (gr_pos _ _ G11). pose proof (gr_pos _ _ G12).
      eapply (out_bind true); [apply patch_out; unfold fixup_at; lia|reflexivity|]. intros s13 _ G13. pose proof (gr_pos _ _ G13).
      apply patch_out; unfold fixup_at; lia.
    - destruct e as [e|]; cbn [oclean].
      + apply inside_cons in E0. destruct E0 as [E0 _].
        eapply out_bind; [apply gen_expr_out; assumption|symmetry; apply andb_true_r|]. intros; put1.
      + eapply (out_bind true); [put1|reflexivity|]. intros; put1.
  Qed.
End Gen.

(** ** Items *)
Lemma set_func_out name k l : In name (map f_name l) -> (forall f, f_name (k f) = f_name f) ->
  exists l', set_func name k l = Ok l' /\ map f_name l' = map f_name l.
Proof.
  induction l as [|f l IH]; intros I0 K; [destruct I0|]. cbn [set_func map]. destruct (bytes_eqb (f_name f) name) eqn:E.
  - eexists. split; [reflexivity|]. cbn [map]. now rewrite K.
  - destruct I0 as [I0|I0]; [apply bytes_eqb_neq in E; contradiction|]. destruct (IH I0 K) as (l' & -> & M). cbn [bind].
    eexists. split; [reflexivity|]. cbn [map]. now rewrite M.
Qed.
Lemma upd_func_out name k s : In name (map f_name (g_funs s)) -> (forall f, f_name (k f) = f_name f) ->
  outcome true s (upd_func name k s).
Proof.
  intros I0 K. unfold upd_func. destruct (set_func_out _ _ _ I0 K) as (l & -> & M). cbn [bind]. apply out_ok.
  constructor; cbn [g_sys g_funs]; auto. unfold pos. cbn [g_code]. lia.
Qed.
Definition clean_i (i : ritem) : bool := match i with RFunc _ _ body _ => forallb clean_s body | _ => true end.
Definition shape_i (names : list bytes) (i : ritem) : Prop :=
  match i with
  | RFunc _ _ body _ => Forall (shape names) (flat_map inside (flat_map exprs_stmt body)) /\ Forall shape_stmt (flat_map within body)
  | _ => True
  end.
Definition fname_in (funs : list bytes) (i : ritem) : Prop := match i with RFunc f _ _ _ => In (fd_name f) funs | _ => True end.
Lemma gen_item_out m sizes ng names i s : shape_i names i -> fname_in (map f_name (g_funs s)) i -> sysok names s ->
  outcome (clean_i i) s (gen_item m sizes ng i s).
Proof.
  intros H N S. destruct i as [f|d oe|f args body lend]; cbn [gen_item clean_i fname_in] in *.
  - apply out_ok, grow_refl.
  - apply out_ok. constructor; cbn [g_sys g_funs]; auto. unfold pos. cbn [g_code]. lia.
  - destruct H as [H1 H2]. eapply (out_bind true); [apply upd_func_out; [exact N|reflexivity]|reflexivity|]. intros s1 _ G1.
    set (s2 := map_func (fd_name f) (pos s1) s1).
    assert (G2 : grow s1 s2). { constructor; auto. unfold s2, pos. cbn [map_func g_code]. lia. }
    eapply out_pre; [exact G2|]. pose proof (sysok_grow _ _ _ G2 (sysok_grow _ _ _ G1 S)) as S2.
    assert (N2 : In (fd_name f) (map f_name (g_funs s2))). { rewrite (gr_funs _ _ G2), (gr_funs _ _ G1). exact N. }
    clearbody s2.
    assert (B : forall s3, grow s2 s3 -> outcome (forallb clean_s body) s3 (walk (gen_stmt m (count args + assoc sizes (fd_id f))) body s3)).
    { intros s3 G3. apply (gen_block_out m names); [apply Forall_forall; intros x _; apply gen_stmt_out|assumption|assumption|eapply sysok_grow; eassumption]. }
    destruct (bytes_eqb (fd_name f) init_name).
    + eapply (out_bind true); [put1|reflexivity|]. intros s3 _ G3.
      eapply out_bind; [apply B; exact G3|symmetry; apply andb_true_r|]. intros s4 _ G4.
      eapply (out_bind true); [put1|reflexivity|]. intros s5 _ G5.
      eapply (out_bind true); [put1|reflexivity|]. intros s6 _ G6.
      apply upd_func_out; [|reflexivity]. rewrite (gr_funs _ _ G6), (gr_funs _ _ G5), (gr_funs _ _ G4), (gr_funs _ _ G3). exact N2.
    + eapply (out_bind true); [destruct (0 <? _); [put1|apply out_ok, grow_refl]|reflexivity|]. intros s3 _ G3.
      eapply out_bind; [apply B; exact G3|symmetry; apply andb_true_r|]. intros s4 _ G4.
      eapply (out_bind true); [destruct (ends_in_return body); [apply out_ok, grow_refl|eapply (out_bind true); [put1|reflexivity|]; intros; put1]|reflexivity|].
      intros s6 _ G6.
      apply upd_func_out; [|reflexivity]. rewrite (gr_funs _ _ G6), (gr_funs _ _ G4), (gr_funs _ _ G3). exact N2.
Qed.
Lemma gen_items_out m sizes ng names items : Forall (shape_i names) items -> forall s,
  Forall (fname_in (map f_name (g_funs s))) items -> sysok names s ->
  outcome (forallb clean_i items) s (walk (gen_item m sizes ng) items s).
Proof.
  induction 1 as [|i l Hi Hl IH]; intros s N S; cbn [walk forallb]; [apply out_ok, grow_refl|].
  inversion N; subst. eapply out_bind; [eapply gen_item_out; eassumption|reflexivity|]. intros s1 _ G.
  apply IH; [rewrite (gr_funs _ _ G); assumption|eapply sysok_grow; eassumption].
Qed.
Lemma apply_calls_out l : forall s, Forall (fun x => fd_line (fst x) <> None /\ 0 <= snd x /\ snd x + 4 <= pos s) l ->
  outcome true s (walk apply_call l s).
Proof.
  induction l as [|x l IH]; intros s H; cbn [walk]; [apply out_ok, grow_refl|]. inversion H as [|? ? (A & B & C) H']; subst.
  eapply (out_bind true); [|reflexivity|].
  - unfold apply_call. destruct (fd_line (fst x)); [apply patch_out; lia|congruence].
  - intros s1 _ G. apply IH. eapply Forall_impl; [|exact H']. cbv beta. pose proof (gr_pos _ _ G). intros y (? & ? & ?). repeat split; auto. lia.
Qed.

(** ** Whole programs *)
Definition sys_names (items : list ritem) : list bytes :=
  flat_map (fun i => match i with RSys f => [fd_name f] | _ => [] end) items.
Lemma syscalls_found items : forall l n, In n (sys_names items) \/ find_syscall l n 0 <> None ->
  find_syscall (fold_left syscall_of items l) n 0 <> None.
Proof.
  induction items as [|i items IH]; intros l n H; cbn [fold_left sys_names flat_map] in *; [destruct H as [[]|H]; exact H|].
  apply IH. fold (sys_names items) in *. rewrite in_app_iff in H.
  assert (A : forall f, find_syscall l n 0 <> None \/ fd_name f = n -> find_syscall (snd (add_syscall l (fd_name f))) n 0 <> None).
  { intros f H0. unfold add_syscall. destruct (find_syscall l (fd_name f) 0) eqn:F; cbn [snd].
    - destruct H0 as [H0|<-]; congruence.
    - destruct (find_syscall l n 0) eqn:F2; [rewrite (find_syscall_app _ _ _ _ _ F2); discriminate|].
      destruct H0 as [H0|<-]; [congruence|]. pose proof (find_syscall_new _ _ _ F) as X. rewrite X. discriminate. }
  destruct i as [f|d oe|f args body lend]; cbn [syscall_of] in *; cbn [In] in H.
  - destruct H as [[[H|[]]|H]|H]; auto.
  - destruct H as [[[]|H]|H]; auto.
  - destruct H as [[[]|H]|H]; auto.
Qed.
Lemma generate_out items n : Forall (shape_i (sys_names items)) (add_init items n) ->
  if forallb clean_i (add_init items n) then exists p, generate items n = Ok p /\ p_syscalls p = fold_left syscall_of (add_init items n) []
  else generate items n = Stuck SAssert.
Proof.
  intros H. unfold generate. destruct (offsets (add_init items n)) as [m sizes].
  set (s0 := Cg _ _ _ _ _ _ _ _).
  pose proof (gen_items_out m sizes (zlen (filter is_var_global (add_init items n))) _ _ H s0) as G.
  assert (N : Forall (fname_in (map f_name (g_funs s0))) (add_init items n)).
  { apply Forall_forall. intros i I0. destruct i as [f|d oe|f args body lend]; cbn [fname_in]; auto.
    apply in_map_iff. eexists. split; [|cbn [s0 g_funs]; apply in_flat_map; eexists; split; [exact I0|left; reflexivity]]. reflexivity. }
  assert (S : sysok (sys_names items) s0).
  { intros x I0. apply syscalls_found. left. unfold add_init, sys_names. rewrite flat_map_app. apply in_app_iff. left. exact I0. }
  specialize (G N S). destruct (forallb clean_i _); cbn [outcome] in G; [|rewrite G; reflexivity].
  destruct G as (s1 & -> & [G1 G2 G3 G4]). cbn [bind].
  destruct (apply_calls_out (g_fix s1) s1) as (s2 & -> & [_ G5 _ _]); [apply G4; constructor|]. cbn [bind].
  eexists. split; [reflexivity|]. cbn [p_syscalls]. rewrite G5, G2. reflexivity.
Qed.

(** ** [clean] in terms of the specification *)
Definition ncs (l : list vdecl) : Prop := Forall (fun d => vd_const d = false) l.
Lemma nc_iff d : nc d = true <-> vd_const d = false.
Proof. unfold nc. destruct (vd_const d); cbn; intuition congruence. Qed.
Definition eaddr (l : list rexpr) : list vdecl := flat_map addressed_expr l.
Lemma eaddr_app a b : eaddr (a ++ b) = eaddr a ++ eaddr b.
Proof. apply flat_map_app. Qed.
Lemma ncs_app a b : ncs (a ++ b) <-> ncs a /\ ncs b.
Proof. apply Forall_app. Qed.
Lemma ncs_nil : ncs [] <-> True.
Proof. split; [auto|intros _; constructor]. Qed.
Lemma ncs_one d : ncs [d] <-> vd_const d = false.
Proof. split; [intros H; now inversion H|intros H; constructor; [exact H|constructor]]. Qed.
Lemma clean_list es : Forall (fun e => clean e = true <-> ncs (eaddr (inside e))) es ->
  (forallb clean es = true <-> ncs (eaddr (flat_map inside es))).
Proof.
  induction 1 as [|e es He Hes IH]; cbn [forallb flat_map]; [split; [intros _; constructor|reflexivity]|].
  rewrite andb_true_iff, eaddr_app, ncs_app, He, IH. reflexivity.
Qed.
Lemma clean_iff e : clean e = true <-> ncs (eaddr (inside e)).
Proof.
  induction e using rexpr_nested; cbn [clean inside]; unfold eaddr; cbn [flat_map addressed_expr app]; fold (eaddr);
    rewrite ?ncs_one, ?ncs_nil; try (split; auto; fail).
  - destruct x; cbn [app]; rewrite ?ncs_one, ?ncs_nil; [apply nc_iff|split; auto].
  - apply nc_iff.
  - apply clean_list. assumption.
  - fold (eaddr (inside e1 ++ inside e2)). rewrite andb_true_iff, eaddr_app, ncs_app, IHe1, IHe2. tauto.
  - fold (eaddr (inside e ++ flat_map inside es)). rewrite andb_true_iff, eaddr_app, ncs_app, IHe, (clean_list _ H). tauto.
  - fold (eaddr (inside e1 ++ inside e2)). rewrite andb_true_iff, eaddr_app, ncs_app, IHe1, IHe2. tauto.
  - exact IHe.
Qed.
Lemma clean_all es : forallb clean es = true <-> ncs (eaddr (flat_map inside es)).
Proof. apply clean_list. apply Forall_forall. intros e _. apply clean_iff. Qed.
Definition saddr (l : list rstmt) : list vdecl := flat_map addressed_stmt l.
Definition tidy (x : rstmt) : Prop :=
  clean_s x = true <-> ncs (eaddr (flat_map inside (exprs_stmt x))) /\ ncs (saddr (within x)).
Lemma tidy_block b : Forall tidy b ->
  (forallb clean_s b = true <-> ncs (eaddr (flat_map inside (flat_map exprs_stmt b))) /\ ncs (saddr (flat_map within b))).
Proof.
  induction 1 as [|x b Hx Hb IH]; cbn [forallb flat_map]; [split; [intros _; split; constructor|reflexivity]|].
  unfold tidy in Hx. unfold saddr in *. rewrite !flat_map_app, eaddr_app, !ncs_app, andb_true_iff, Hx, IH. tauto.
Qed.
Lemma tidy_oblock o : oall tidy o ->
  (ob o = true <-> ncs (eaddr (flat_map inside (oblock_exprs o))) /\
     ncs (saddr (match o with Some b => flat_map within b | None => [] end))).
Proof. destruct o; cbn [oall ob oblock_exprs]; intros H; [apply tidy_block; exact H|]. split; [intros _; split; constructor|reflexivity]. Qed.
Lemma tidy_all x : tidy x.
Proof.
  induction x using rstmt_nested; unfold tidy; cbn [clean_s exprs_stmt within]; unfold saddr; cbn [flat_map addressed_stmt app]; fold saddr;
    rewrite ?app_nil_r, ?ncs_one, ?ncs_nil.
  - destruct e; cbn [oclean opt_list flat_map]; rewrite ?app_nil_r; [rewrite clean_iff; tauto|split; auto; intros _; split; constructor].
  - rewrite andb_true_iff, clean_iff, nc_iff. tauto.
  - rewrite andb_true_iff, clean_iff, nc_iff. tauto.
  - rewrite !andb_true_iff, !clean_iff, nc_iff, eaddr_app, ncs_app. tauto.
  - change (forallb clean es && clean f) with (clean (RCall l f es)). rewrite clean_iff. cbn [inside]. unfold eaddr. cbn [flat_map addressed_expr app]. tauto.
  - fold (ob t) (ob f) (oblock_exprs t) (oblock_exprs f). pose proof (tidy_oblock _ H) as A. pose proof (tidy_oblock _ H0) as B. unfold saddr in A, B.
    rewrite !andb_true_iff, !flat_map_app, !eaddr_app, !ncs_app, clean_iff, A, B. tauto.
  - fold (ob b) (oblock_exprs b). pose proof (tidy_oblock _ H) as A. unfold saddr in A.
    rewrite !andb_true_iff, !eaddr_app, !ncs_app, clean_iff, A. tauto.
  - pose proof (tidy_block _ H) as A. unfold saddr in A. change (ncs (d :: flat_map addressed_stmt (flat_map within body))) with (ncs ([d] ++ flat_map addressed_stmt (flat_map within body))).
    rewrite !andb_true_iff, !eaddr_app, !ncs_app, ncs_one, !clean_iff, nc_iff, A. tauto.
  - destruct e; cbn [oclean opt_list flat_map]; rewrite ?app_nil_r; [rewrite clean_iff; tauto|split; auto; intros _; split; constructor].
Qed.
Lemma clean_block b : forallb clean_s b = true <-> ncs (eaddr (flat_map inside (flat_map exprs_stmt b))) /\ ncs (saddr (flat_map within b)).
Proof. apply tidy_block. apply Forall_forall. intros x _. apply tidy_all. Qed.
Definition run_exprs (i : ritem) : list rexpr :=
  match i with RGlobal d oe => if vd_const d then [] else opt_list oe | _ => exprs_item i end.
Definition item_stmts (i : ritem) : list rstmt := match i with RFunc _ _ body _ => flat_map within body | _ => [] end.
Lemma clean_items items n : forallb clean_i (add_init items n) = true <-> no_constant_addressed items.
Proof.
  unfold no_constant_addressed, add_init. rewrite forallb_app. cbn [forallb clean_i]. rewrite andb_true_r, andb_true_iff.
  transitivity (ncs (addressed items)); [|unfold ncs; rewrite Forall_forall; reflexivity].
  unfold addressed, run_time_exprs. rewrite ncs_app. fold run_exprs. fold (eaddr (flat_map inside (flat_map run_exprs items))).
  change (program_stmts items) with (flat_map item_stmts items). fold (saddr (flat_map item_stmts items)).
  induction items as [|i items IH]; cbn [forallb flat_map]; [split; [intros _; split; constructor|auto]|].
  rewrite forallb_app, !andb_true_iff, !flat_map_app, eaddr_app. unfold saddr. rewrite flat_map_app. fold saddr. rewrite !ncs_app.
  fold (saddr (item_stmts i)) (saddr (flat_map item_stmts items)).
  assert (X : clean_i i = true /\ forallb clean_s (init_assign i) = true <->
    ncs (eaddr (flat_map inside (run_exprs i))) /\ ncs (saddr (item_stmts i))).
  { destruct i as [f|d oe|f args body lend]; cbn [clean_i init_assign run_exprs item_stmts exprs_item].
    - split; [intros _; split; constructor|split; reflexivity].
    - destruct oe as [e|].
      + destruct (vd_const d) eqn:C.
        * split; [intros _; split; constructor|split; reflexivity].
        * cbn [forallb clean_s opt_list flat_map]. rewrite app_nil_r, andb_true_r, andb_true_iff, clean_iff, nc_iff.
          split; [intros (_ & A & _); split; [exact A|constructor]|intros [A _]; auto].
      + split; [intros _; split; [destruct (vd_const d); constructor|constructor]|split; reflexivity].
    - rewrite clean_block. cbn [forallb]. tauto. }
  tauto.
Qed.

(** ** Analysed programs have the right shape *)
Definition placed (d : decl) : Prop := match d with DF f => fd_sys f = true \/ fd_line f <> None | DV _ => True end.
Lemma annotate_placed addr cs items n : annotate addr cs = Ok (items, n) -> Forall placed (top_decls items).
Proof.
  unfold annotate. destruct (number cs 0) as [ds m] eqn:N. intros E.
  destruct (number_inv _ _ _ _ N) as [HD _].
  assert (T : top_decls items = map fst ds).
  { assert (X : Forall2 (child_item (map fst ds)) ds items).
    { eapply each_inv; [|exact E]. eapply Forall_impl; [|exact HD]. cbv beta.
      intros dc H ? ? ? H2. eapply ann_child_inv; eassumption. }
    clear -X. revert X. generalize (map fst ds) at 1. intros g F.
    induction F as [|dc i ds items H F IH]; [reflexivity|].
    cbn [top_decls map]. unfold top_decls in IH. rewrite IH. f_equal. apply H. }
  rewrite T. clear -HD. induction HD as [|dc ds [k H] HD IH]; cbn [map]; constructor; [|exact IH].
  destruct dc as [d c]. cbn [fst snd] in *. destruct c as [x j|[]]; cbn [head_decl] in H; inversion H; subst; cbn [placed]; auto; right; discriminate.
Qed.
Lemma inlined_tops lit is js : Forall2 (inlined_item lit) is js -> top_decls js = top_decls is.
Proof. unfold top_decls. induction 1 as [|i j is js H F IH]; [reflexivity|]. cbn [map]. rewrite IH. destruct H; reflexivity. Qed.
Lemma within_vars d e x : In (RVar d e) (within x) -> In d (decls_stmt x).
Proof.
  revert d e. induction x using rstmt_nested; intros d0 e0 I0; cbn [within decls_stmt] in *; (destruct I0 as [I0|I0]; [try discriminate|]); try contradiction.
  - inversion I0; subst. now left.
  - apply in_app_iff in I0. apply in_app_iff. destruct I0 as [I0|I0]; [left; destruct t as [b|]|right; destruct f as [b|]]; try contradiction;
      cbn [oall] in *; rewrite Forall_forall in *; apply in_flat_map in I0; destruct I0 as (y & I1 & I2); apply in_flat_map; eauto.
  - destruct b as [b|]; [|contradiction]. cbn [oall] in H. rewrite Forall_forall in H. apply in_flat_map in I0. destruct I0 as (y & I1 & I2). apply in_flat_map. eauto.
  - rewrite Forall_forall in H. apply in_flat_map in I0. destruct I0 as (y & I1 & I2). apply in_flat_map. eauto.
Qed.
Lemma local_shapes body : Forall local_var (decls_block body) -> Forall shape_stmt (flat_map within body).
Proof.
  rewrite !Forall_forall. intros H x I0. destruct x; cbn [shape_stmt]; auto. apply in_flat_map in I0. destruct I0 as (y & I1 & I2).
  apply H. unfold decls_block. apply in_flat_map. exists y. split; [exact I1|]. eapply within_vars. exact I2.
Qed.
Lemma top_sys items f : Forall item_ok items -> In (DF f) (top_decls items) -> fd_sys f = true -> In (fd_name f) (sys_names items).
Proof.
  unfold top_decls. intros H I0 S. apply in_map_iff in I0. destruct I0 as (i & E & I1). rewrite Forall_forall in H. specialize (H _ I1).
  unfold sys_names. apply in_flat_map. exists i. split; [exact I1|].
  destruct i as [g|d oe|g args body lend]; cbn [top_decl item_ok] in *; inversion E; subst; [now left|]. destruct H as [H _]. congruence.
Qed.
Lemma add_init_shape names items n : Forall (shape names) (run_time_exprs items) ->
  Forall (fun i => match i with RFunc _ _ body _ => Forall shape_stmt (flat_map within body) | _ => True end) items ->
  Forall (shape_i names) (add_init items n).
Proof.
  intros H1 H2. unfold run_time_exprs in H1. fold run_exprs in H1. apply Forall_app. split.
  - rewrite Forall_forall in *. intros i I0. specialize (H2 _ I0). destruct i as [f|d oe|f args body lend]; cbn [shape_i]; auto.
    split; [|exact H2]. apply Forall_forall. intros x I1. apply H1. rewrite flat_map_flat. apply in_flat_map. exists (RFunc f args body lend). auto.
  - constructor; [|constructor]. cbn [shape_i]. clear H2. induction items as [|i items IH]; cbn [flat_map]; [split; constructor|].
    cbn [flat_map] in H1. rewrite flat_map_app in H1. apply Forall_app in H1. destruct H1 as [H1 H2]. destruct (IH H2) as [IH1 IH2].
    rewrite !flat_map_app. split; apply Forall_app; split; auto.
    + destruct i as [f|d [e|]|f args body lend]; cbn [init_assign run_exprs] in *; try constructor.
      destruct (vd_const d); [constructor|exact H1].
    + destruct i as [f|d [e|]|f args body lend]; cbn [init_assign]; try constructor. destruct (vd_const d); cbn [flat_map within app]; repeat constructor.
Qed.
Lemma run_time_sub items e : In e (run_time_exprs items) -> In e (program_exprs items).
Proof.
  unfold run_time_exprs, program_exprs. intros I0. apply in_flat_map in I0. destruct I0 as (x & I0 & I1). apply in_flat_map. exists x. split; [|exact I1].
  apply in_flat_map in I0. destruct I0 as (i & I2 & I3). apply in_flat_map. exists i. split; [exact I2|]. destruct i as [f|d oe|f args body lend]; auto.
  cbn [exprs_item]. destruct (vd_const d); [destruct I3|exact I3].
Qed.
Lemma sema_shape addr cs items n : Forall child_fine cs -> run_sema addr cs = Ok (items, n) ->
  Forall (shape (sys_names items)) (program_exprs items) /\
  Forall (fun i => match i with RFunc _ _ body _ => Forall shape_stmt (flat_map within body) | _ => True end) items.
Proof.
  intros F E. pose proof (run_sema_lit _ _ _ _ F E) as L. apply run_sema_done in E.
  destruct E as [(r & r1 & n0 & A & FO & IN) [T1 T2] IDS _ ST _ NM CK].
  assert (P : Forall placed (top_decls items)).
  { rewrite (inlined_tops _ _ _ IN), (folded_tops _ _ _ FO). eapply annotate_placed. exact A. }
  split.
  - rewrite Forall_forall in *. intros e I0. specialize (L _ I0). specialize (CK _ I0).
    destruct e as [i v l|f l|b l|l|d l|d l mm lm|l es|l a i|l f es|o l a b|o l a]; cbn [shape machine_literal] in *; auto.
    + destruct d as [d|f]; auto. destruct (used_program _ _ _ I0) as [sc U]. specialize (ST _ U). cbn [fst settled] in ST.
      destruct (fd_sys f) eqn:FS; [apply top_sys; auto; apply Forall_forall; exact T1|]. specialize (P _ ST). cbn [placed] in P. destruct P; congruence.
    + destruct f as [| | | |[d|f] lf| | | | | |]; auto. destruct (CK _ _ _ _ eq_refl) as [C|C]; [left|right; congruence].
      apply andb_true_iff in C. apply C.
  - eapply Forall_impl; [|exact T1]. intros i H. destruct i as [f|d oe|f args body lend]; auto. cbn [item_ok] in H. apply local_shapes. apply H.
Qed.
Lemma sema_generate addr cs items n : Forall child_fine cs -> run_sema addr cs = Ok (items, n) ->
  (no_constant_addressed items -> exists p, generate items n = Ok p) /\
  (~ no_constant_addressed items -> generate items n = Stuck SAssert).
Proof.
  intros F E. destruct (sema_shape _ _ _ _ F E) as [H1 H2].
  assert (H3 : Forall (shape (sys_names items)) (run_time_exprs items)).
  { rewrite Forall_forall in *. intros e I0. apply H1. apply run_time_sub. exact I0. }
  pose proof (generate_out items n (add_init_shape _ _ n H3 H2)) as G. rewrite <- (clean_items items n).
  destruct (forallb clean_i _); split; intros X; auto; try congruence. destruct G as (p & G & _). eauto.
Qed.

(** ** The optimiser keeps both *)
Lemma set_clean w e : clean (set_expr w e) = clean e.
Proof.
  assert (L : forall es, Forall (fun e => clean (set_expr w e) = clean e) es -> forallb clean (map (set_expr w) es) = forallb clean es).
  { induction 1; cbn [map forallb]; congruence. }
  induction e using rexpr_nested; cbn [set_expr clean]; try reflexivity; rewrite ?L by assumption; congruence.
Qed.
Lemma set_clean_opt w o : oclean (option_map (set_expr w) o) = oclean o.
Proof. destruct o; cbn [oclean option_map]; [apply set_clean|reflexivity]. Qed.
Lemma set_clean_stmt w x : clean_s (set_stmt w x) = clean_s x.
Proof.
  assert (L : forall b, Forall (fun x => clean_s (set_stmt w x) = clean_s x) b -> forallb clean_s (map (set_stmt w) b) = forallb clean_s b).
  { induction 1; cbn [map forallb]; congruence. }
  assert (LE : forall es, forallb clean (map (set_expr w) es) = forallb clean es).
  { induction es; cbn [map forallb]; [reflexivity|]. rewrite set_clean. congruence. }
  assert (LO : forall o, oall (fun x => clean_s (set_stmt w x) = clean_s x) o -> ob (option_map (map (set_stmt w)) o) = ob o).
  { destruct o; cbn [oall ob option_map]; auto. }
  induction x using rstmt_nested; cbn [set_stmt clean_s]; rewrite ?set_clean, ?set_clean_opt, ?LE; try reflexivity.
  - fold (ob t) (ob f) (ob (option_map (map (set_stmt w)) t)) (ob (option_map (map (set_stmt w)) f)). rewrite !LO by assumption. reflexivity.
  - fold (ob b) (ob (option_map (map (set_stmt w)) b)). rewrite LO by assumption. reflexivity.
  - rewrite L by assumption. reflexivity.
Qed.
Lemma fold_top_clean e n e' n' : clean e = true -> fold_top e n = Ok (e', n') -> clean e' = true.
Proof.
  unfold fold_top. intros C E. inv_bind E. destruct e, a; inversion E; subst; auto.
Qed.
Definition cln (x : rstmt) : Prop := clean_s x = true.
Definition fold_cln (x : rstmt) : Prop := forall n x' n', cln x -> fold_stmt x n = Ok (x', n') -> cln x'.
Lemma fold_block_cln b : Forall fold_cln b -> forall n b' n', forallb clean_s b = true -> each fold_stmt b n = Ok (b', n') -> forallb clean_s b' = true.
Proof.
  induction 1 as [|x b Hx Hb IH]; intros n b' n' C E; cbn [each forallb] in *; [inversion E; reflexivity|].
  apply andb_true_iff in C. destruct C. inv_bind E. destruct a. inv_bind E. destruct a. inversion E; subst. cbn [forallb].
  apply andb_true_iff. split; [eapply Hx; eassumption|eapply IH; eassumption].
Qed.
Lemma fold_oblock_cln o : oall fold_cln o -> forall n o' n', ob o = true ->
  match o with None => Ok (None, n) | Some b => '(b', m) <- each fold_stmt b n ;; Ok (Some b', m) end = Ok (o', n') -> ob o' = true.
Proof.
  destruct o; cbn [oall ob]; intros H n o' n' C E; [|inversion E; reflexivity]. inv_bind E. destruct a. inversion E; subst. cbn [ob]. eapply fold_block_cln; eassumption.
Qed.
Ltac ands := repeat match goal with H : _ && _ = true |- _ => apply andb_true_iff in H; destruct H | |- _ && _ = true => apply andb_true_iff; split end.
Lemma fold_stmt_cln x : fold_cln x.
Proof.
  induction x using rstmt_nested; intros n x' n' C E; unfold cln in *; cbn [fold_stmt clean_s] in *.
  - inv_bind E. inversion E; subst. exact C.
  - inv_bind E. destruct a. inversion E; subst. cbn [clean_s]. ands; auto. eapply fold_top_clean; eassumption.
  - inv_bind E. inversion E; subst. exact C.
  - inv_bind E. inv_bind E. inversion E; subst. exact C.
  - inv_bind E. inversion E; subst. exact C.
  - fold (ob t) (ob f) in C. inv_bind E. inv_bind E. destruct a0 as [t' m1]. inv_bind E. destruct a0 as [f' m2]. inv_bind E. destruct a0 as [c' m3]. inversion E; subst.
    cbn [clean_s]. fold (ob t') (ob f'). ands; [eapply fold_top_clean; eassumption|eapply (fold_oblock_cln t); eassumption|eapply (fold_oblock_cln f); eassumption].
  - fold (ob b) in C. inv_bind E. inv_bind E. destruct a0 as [t' m1]. inv_bind E. destruct a0 as [c' m3]. inversion E; subst.
    cbn [clean_s]. fold (ob t'). ands; [eapply (fold_oblock_cln b); eassumption|eapply fold_top_clean; eassumption].
  - inv_bind E. inv_bind E. inv_bind E. destruct a2. inversion E; subst. cbn [clean_s]. ands; auto. eapply fold_block_cln; eassumption.
  - destruct e; [|inversion E; reflexivity]. inv_bind E. destruct a. inversion E; subst. cbn [clean_s oclean] in *. eapply fold_top_clean; eassumption.
Qed.
Lemma cut_cln b : forallb clean_s b = true -> forallb clean_s (cut_block b) = true.
Proof.
  induction b as [|x b IH]; intros C; [reflexivity|]. cbn [forallb] in C. ands. destruct x; cbn [cut_block forallb]; ands; auto.
Qed.
Definition ifr_cln (x : rstmt) : Prop := forall w, cln x -> cln (fst (ifr_stmt x w)).
Lemma ifr_block_cln b : Forall ifr_cln b -> forall w, forallb clean_s b = true -> forallb clean_s (fst (ifr_block b w)) = true.
Proof.
  induction 1 as [|x b Hx Hb IH]; intros w C; cbn [ifr_block forallb] in *; [reflexivity|]. ands. specialize (Hx w H).
  destruct (ifr_stmt x w) as [x' w1]. specialize (IH w1 H0). destruct (ifr_block b w1). cbn [fst forallb] in *. ands; auto.
Qed.
Lemma ifr_oblock_cln o : oall ifr_cln o -> forall w, ob o = true -> ob (fst (ifr_oblock o w)) = true.
Proof.
  destruct o as [b|]; cbn [oall ob]; intros H w C; [|reflexivity]. apply ifr_block_cln with (w := w) in C; [|assumption].
  unfold ifr_oblock. destruct (ifr_block b w). exact C.
Qed.
Lemma ifr_stmt_cln x : ifr_cln x.
Proof.
  induction x using rstmt_nested; intros w C; unfold cln in *; try (cbn [ifr_stmt fst]; exact C).
  - rewrite ifr_if. cbn [clean_s] in C. fold (ob t) (ob f) in C. ands.
    pose proof (ifr_oblock_cln t H w) as A. destruct (ifr_oblock t w) as [t' w1].
    pose proof (ifr_oblock_cln f H0 w1) as B. destruct (ifr_oblock f w1) as [f' w2]. cbn [fst] in A, B.
    assert (K : forall tt ff, ob tt = true -> ob ff = true -> clean_s (RIf l c tt ff) = true).
    { intros tt ff T1 F1. cbn [clean_s]. fold (ob tt) (ob ff). ands; auto. }
    destruct c; try (cbn [fst]; apply K; auto). destruct (negb _); cbn [fst]; apply K; auto.
  - rewrite ifr_while. cbn [clean_s] in C. fold (ob b) in C. ands.
    pose proof (ifr_oblock_cln b H w) as A. destruct (ifr_oblock b w) as [b' w1]. cbn [fst] in A.
    assert (K : forall bb, ob bb = true -> clean_s (RWhile l c bb) = true).
    { intros bb T1. cbn [clean_s]. fold (ob bb). ands; auto. }
    destruct c; try (cbn [fst]; apply K; auto). destruct (_ =? 0); cbn [fst]; apply K; auto.
  - rewrite ifr_for. cbn [clean_s] in C. ands.
    pose proof (ifr_block_cln body H w) as A. destruct (ifr_block body w) as [b' w1]. cbn [fst clean_s] in *. ands; auto.
Qed.

Definition itidy (i : ritem) : Prop := clean_i i = true /\ forallb clean_s (init_assign i) = true.
Lemma tidy_items items (n : nat) : Forall itidy items <-> no_constant_addressed items.
Proof.
  rewrite <- (clean_items items n). unfold add_init. rewrite forallb_app. cbn [forallb clean_i]. rewrite andb_true_r, andb_true_iff.
  unfold itidy. induction items as [|i items IH]; cbn [forallb flat_map]; [split; [auto|constructor]|].
  rewrite forallb_app, !andb_true_iff. rewrite Forall_cons_iff, IH. tauto.
Qed.
Lemma run_optimize_tidy on items n items' n' : Forall itidy items -> run_optimize on items n = Ok (items', n') -> Forall itidy items'.
Proof.
  unfold run_optimize. intros H E. destruct on; [|inversion E; subst; exact H]. inv_bind E. destruct a as [r m]. inversion E; subst.
  assert (H1 : Forall itidy (map post_ret items)).
  { clear -H. induction H as [|i items [A B] H IH]; cbn [map]; constructor; auto. destruct i; split; auto. cbn [post_ret clean_i] in *. apply cut_cln. exact A. }
  assert (H2 : Forall itidy r).
  { clear H E. revert r n n' E0. unfold const_expr. induction H1 as [|i l [A B] H1 IH]; intros r n n' E; cbn [each] in E; [inversion E; constructor|].
    inv_bind E. destruct a as [i' m1]. inv_bind E. destruct a as [l' m2]. inversion E; subst. constructor; [|eapply IH; eassumption].
    destruct i as [f|d oe|f args body lend]; cbn [fold_item] in E0.
    - inversion E0; subst. split; auto.
    - inv_bind E0. inversion E0; subst. split; auto.
    - inv_bind E0. destruct a. inversion E0; subst. split; [|exact B]. cbn [clean_i] in *. eapply fold_block_cln; [|exact A|eassumption].
      apply Forall_forall. intros x _. apply fold_stmt_cln. }
  clear H H1 E0 E. unfold if_remove.
  assert (H3 : forall w, Forall itidy (fst (ifr_items r w))).
  { induction H2 as [|i l [A B] H2 IH]; intros w; cbn [ifr_items]; [constructor|].
    destruct i as [f|d oe|f args body lend].
    - specialize (IH w). destruct (ifr_items l w). constructor; [split; auto|exact IH].
    - specialize (IH w). destruct (ifr_items l w). constructor; [split; auto|exact IH].
    - cbn [clean_i] in A. apply ifr_block_cln with (w := w) in A; [|apply Forall_forall; intros x _; apply ifr_stmt_cln].
      destruct (ifr_block body w) as [b w1]. specialize (IH w1). destruct (ifr_items l w1). cbn [fst] in *. constructor; [split; auto|exact IH]. }
  specialize (H3 []). destruct (ifr_items r []) as [l w]. cbn [fst] in H3. clear -H3.
  induction H3 as [|i l [A B] H3 IH]; cbn [map]; constructor; auto. destruct i as [f|d oe|f args body lend]; cbn [set_item] in *.
  - split; auto.
  - split; auto. cbn [init_assign] in *. destruct oe as [e|]; cbn [option_map]; auto. destruct (vd_const d); auto.
    cbn [forallb clean_s] in *. rewrite set_clean. exact B.
  - split; auto. cbn [clean_i] in *. rewrite <- A. clear. induction body; cbn [map forallb]; [reflexivity|]. rewrite set_clean_stmt. congruence.
Qed.

Lemma optimize_shape on items n items' n' : 
  Forall machine_literal (program_exprs items) ->
  Forall (shape (sys_names items)) (program_exprs items) ->
  Forall (fun i => match i with RFunc _ _ body _ => Forall local_var (decls_block body) | _ => True end) items ->
  run_optimize on items n = Ok (items', n') ->
  Forall (shape_i (sys_names items')) (add_init items' n') /\ sys_names items' = sys_names items.
Proof.
  intros L H1 H2 E. set (names := sys_names items).
  assert (G : Forall (fine (fun _ => True) (shape names)) items).
  { apply Forall_forall. intros i I0. unfold fine. apply Forall_forall. intros e I1. unfold good_in. apply Forall_forall. intros x I2.
    assert (J : In x (program_exprs items)).
    { unfold program_exprs. apply in_flat_map. exists e. split; [|exact I2]. apply in_flat_map. eauto. }
    rewrite Forall_forall in L, H1. split; [auto|]. split; [|apply H1; exact J]. destruct x as [| | | |[|]| | | | | |]; auto. }
  assert (Qi : forall i v l, shape names (RInt i v l)) by (intros; exact Logic.I).
  assert (Qs : forall w e, shape names e -> shape names (set_expr w e)).
  { intros w e S. destruct e as [i v l|f l|b l|l|d l|d l mm lm|l es|l a i|l f es|o l a b|o l a]; cbn [set_expr shape] in *; auto.
    - destruct es; cbn [map]; congruence.
    - destruct f as [| | | |[d|f] lf| | | | | |]; cbn [set_expr] in *; auto. rewrite map_length. exact S. }
  destruct (run_optimize_kept (fun _ => True) (shape names) Qi Qs _ _ _ _ _ G E) as [K _].
  assert (SN : sys_names items' = names /\
    Forall (fun i => match i with RFunc _ _ body _ => Forall local_var (decls_block body) | _ => True end) items').
  { unfold names, sys_names. clear -K H2. induction K as [|i j is js [A _] K IH]; cbn [flat_map]; [split; [reflexivity|constructor]|].
    inversion H2; subst. destruct (IH H3) as [I1 I2]. rewrite I1. destruct i, j; try contradiction.
    - subst. split; [reflexivity|constructor; auto].
    - split; [reflexivity|constructor; auto].
    - destruct A as (-> & -> & S). split; [reflexivity|constructor; auto]. rewrite Forall_forall in *. intros d I0. apply H1. eapply sub_in; eassumption. }
  destruct SN as [-> SL]. split; [|reflexivity]. apply add_init_shape.
  - pose proof (kept_fine _ _ _ _ K) as G'.
    assert (G2 : Forall (good (fun _ => True) (shape names)) (program_exprs items')).
    { unfold program_exprs. apply Forall_flat. apply Forall_flat. exact G'. }
    rewrite Forall_forall in *. intros e I0. destruct (G2 e) as (_ & _ & S); [apply run_time_sub; exact I0|exact S].
  - eapply Forall_impl; [|exact SL]. intros i H. destruct i; auto. apply local_shapes. exact H.
Qed.
Lemma sema_optimize_generate addr cs items n on items' n' : Forall child_fine cs -> run_sema addr cs = Ok (items, n) ->
  run_optimize on items n = Ok (items', n') ->
  (no_constant_addressed items' -> exists p, generate items' n' = Ok p) /\
  (~ no_constant_addressed items' -> generate items' n' = Stuck SAssert) /\
  (no_constant_addressed items -> no_constant_addressed items').
Proof.
  intros F E O. destruct (sema_shape _ _ _ _ F E) as [H1 _]. pose proof (run_sema_lit _ _ _ _ F E) as L.
  destruct (run_sema_done _ _ _ _ E) as [_ [T1 _] _ _ _ _ _ _].
  assert (H2 : Forall (fun i => match i with RFunc _ _ body _ => Forall local_var (decls_block body) | _ => True end) items).
  { eapply Forall_impl; [|exact T1]. intros i H. destruct i; auto. cbn [item_ok] in H. apply H. }
  pose proof (generate_out items' n' (proj1 (optimize_shape _ _ _ _ _ L H1 H2 O))) as G. rewrite <- (clean_items items' n').
  split; [|split].
  - destruct (forallb clean_i _); intros X; [|congruence]. destruct G as (p & G & _). eauto.
  - destruct (forallb clean_i _); intros X; auto; congruence.
  - rewrite clean_items. intros X. apply (tidy_items items' n'). eapply run_optimize_tidy; [|exact O]. apply (tidy_items items n). exact X.
Qed.

(** ** The syscall table *)
Lemma find_syscall_none l x : forall k, find_syscall l x k = None <-> ~ In x (map s_name l).
Proof.
  induction l as [|a l IH]; intros k; cbn [find_syscall map In]; [tauto|]. destruct (bytes_eqb (s_name a) x) eqn:E.
  - apply bytes_eqb_eq in E. split; [discriminate|]. intros H. destruct H. auto.
  - apply bytes_eqb_neq in E. rewrite IH. tauto.
Qed.
Lemma syscalls_exact items : forall acc, NoDup (sys_names items) ->
  (forall x, In x (sys_names items) -> find_syscall acc x 0 = None) ->
  fold_left syscall_of items acc = acc ++ map unbound (sys_names items).
Proof.
  induction items as [|i items IH]; intros acc N F; cbn [fold_left sys_names flat_map map app] in *; [now rewrite app_nil_r|].
  fold (sys_names items) in *. destruct i as [f|d oe|f args body lend]; cbn [syscall_of app map] in *.
  - inversion N; subst. unfold add_syscall. rewrite (F _ (or_introl eq_refl)). cbn [snd]. rewrite IH; [|assumption|].
    + rewrite <- app_assoc. reflexivity.
    + intros x I0. specialize (F x (or_intror I0)). rewrite find_syscall_none in *. rewrite map_app, in_app_iff. cbn [map s_name In].
      intros [A|[A|[]]]; [contradiction|]. subst. contradiction.
  - apply IH; assumption.
  - apply IH; assumption.
Qed.
Definition child_sys (cs : list child) : list bytes := flat_map (fun c => match c with CSys x _ => [x] | _ => [] end) cs.
Lemma sema_sys_names addr cs items n : run_sema addr cs = Ok (items, n) ->
  sys_names items = child_sys cs /\ NoDup (sys_names items).
Proof.
  intros E. destruct (run_sema_done _ _ _ _ E) as [(r & r1 & n0 & A & FO & IN) _ _ _ _ _ NM _].
  destruct (annotate_inv _ _ _ _ A) as [PL _]. split.
  - transitivity (sys_names r1).
    { unfold sys_names. clear -IN. induction IN as [|i j is js H IN IH]; [reflexivity|]. cbn [flat_map]. rewrite IH. destruct H; reflexivity. }
    transitivity (sys_names r).
    { unfold sys_names. clear -FO. generalize dependent FO. generalize (int_const r1) as Q. intros Q FO.
      induction FO as [|i j is js H FO IH]; [reflexivity|]. cbn [flat_map]. rewrite IH. destruct H; reflexivity. }
    transitivity (child_sys (map plain_item r)).
    { clear. induction r as [|i r IH]; [reflexivity|]. unfold sys_names, child_sys in *. cbn [map flat_map]. rewrite IH. destruct i; reflexivity. }
    rewrite PL. clear. induction cs as [|c cs IH]; [reflexivity|]. unfold child_sys in *. cbn [flat_map]. rewrite flat_map_app, IH.
    destruct c as [x k|[]]; reflexivity.
  - apply (sub_nodup _ (map decl_name (top_decls items))); [|apply decl_items_nodup in NM; apply NM].
    unfold sys_names, top_decls. clear. induction items as [|i items IH]; [constructor|]. cbn [map flat_map].
    destruct i; cbn [app top_decl decl_name]; constructor; assumption.
Qed.
Lemma sema_optimize_syscalls addr cs items n on items' n' p : Forall child_fine cs -> run_sema addr cs = Ok (items, n) ->
  run_optimize on items n = Ok (items', n') -> generate items' n' = Ok p ->
  p_syscalls p = map unbound (child_sys cs) /\ NoDup (child_sys cs).
Proof.
  intros F E O Ge. destruct (sema_shape _ _ _ _ F E) as [H1 _]. pose proof (run_sema_lit _ _ _ _ F E) as L.
  destruct (run_sema_done _ _ _ _ E) as [_ [T1 _] _ _ _ _ _ _].
  assert (H2 : Forall (fun i => match i with RFunc _ _ body _ => Forall local_var (decls_block body) | _ => True end) items).
  { eapply Forall_impl; [|exact T1]. intros i H. destruct i; auto. cbn [item_ok] in H. apply H. }
  destruct (sema_sys_names _ _ _ _ E) as [SN ND].
  destruct (optimize_shape _ _ _ _ _ L H1 H2 O) as [Sh SN'].
  pose proof (generate_out items' n' Sh) as G. destruct (forallb clean_i _); [|congruence]. destruct G as (p' & G & P).
  rewrite Ge in G. injection G as <-. split; [|congruence]. rewrite P, syscalls_exact.
  - cbn [app]. f_equal. unfold add_init, sys_names. rewrite flat_map_app. cbn [flat_map app]. rewrite app_nil_r. fold (sys_names items'). congruence.
  - unfold add_init, sys_names. rewrite flat_map_app. cbn [flat_map app]. rewrite app_nil_r. fold (sys_names items'). congruence.
  - intros x _. reflexivity.
Qed.
