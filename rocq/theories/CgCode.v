(** Proof support: the code generator as a function from syntax to lists of
    instructions, and the equivalence with the emitting version. *)
From Coq Require Import ZArith List Bool Lia ZifyBool.
From Verif Require Import Base BaseFacts F32 Instr InstrSpec InstrProofs Program Ast Sema SemaFacts Codegen.
Import ListNotations.
Open Scope Z_scope.

(** An instruction, or one whose operand is the address of a function. *)
Inductive sins : Type :=
| SI (x : ins)
| SCall (n : Z) (f : fdecl)
| SFn (f : fdecl).

Definition linked_ins (fa : fdecl -> Z) (x : sins) : ins :=
  match x with
  | SI x => x
  | SCall n f => I2 INS_CALL n (fa f)
  | SFn f => I1 INS_NEW_FUNC (fa f)
  end.
Definition enc (x : ins) : bytes := match emit x with Ok b => b | _ => [] end.
Definition sbytes (fa : fdecl -> Z) (x : sins) : bytes := enc (linked_ins fa x).
Definition code_of (fa : fdecl -> Z) (l : list sins) : bytes := flat_map (sbytes fa) l.
Definition hole (f : fdecl) : Z := 0.
Definition swidth (x : sins) : Z := zlen (sbytes hole x).
Definition clen (l : list sins) : Z := zlen (code_of hole l).

Lemma zlen_sbytes fa x : zlen (sbytes fa x) = swidth x.
Proof. destruct x; reflexivity. Qed.
Lemma code_of_app fa a b : code_of fa (a ++ b) = code_of fa a ++ code_of fa b.
Proof. unfold code_of. apply flat_map_app. Qed.
Lemma zlen_code_of fa l : zlen (code_of fa l) = clen l.
Proof.
  unfold clen. induction l as [|x l IH]; [reflexivity|]. unfold code_of in *. cbn [flat_map].
  rewrite !zlen_app, IH, !zlen_sbytes. reflexivity.
Qed.
Lemma clen_app a b : clen (a ++ b) = clen a + clen b.
Proof. unfold clen. rewrite code_of_app, zlen_app. reflexivity. Qed.
Lemma clen_cons x l : clen (x :: l) = swidth x + clen l.
Proof. unfold clen, swidth, code_of. cbn [flat_map]. apply zlen_app. Qed.
Lemma clen_nil : clen [] = 0. Proof. reflexivity. Qed.
Lemma clen_nonneg l : 0 <= clen l. Proof. unfold clen. apply zlen_nonneg. Qed.
Lemma clen1 x : clen [x] = swidth x.
Proof. rewrite clen_cons, clen_nil. lia. Qed.

(** The places of the call operands. *)
Fixpoint fixes (base : Z) (l : list sins) : list (fdecl * Z) :=
  match l with
  | [] => []
  | x :: t =>
      match x with
      | SI _ => []
      | SCall _ f | SFn f => [(f, base + swidth x - 4)]
      end ++ fixes (base + swidth x) t
  end.
Lemma fixes_app base a b : fixes base (a ++ b) = fixes base a ++ fixes (base + clen a) b.
Proof.
  revert base. induction a as [|x a IH]; intros base; cbn [app fixes].
  - rewrite clen_nil. f_equal. lia.
  - rewrite IH, clen_cons, <- app_assoc. do 2 f_equal. f_equal. lia.
Qed.

(** ** Compiling *)
Fixpoint estrs (e : rexpr) : list bytes :=
  match e with
  | RStr x _ => [x]
  | RMember _ _ x _ => [x]
  | RArray _ es => flat_map estrs es
  | RIndex _ a i => estrs i ++ estrs a
  | RCall _ f es => flat_map estrs es ++ estrs f
  | RBin _ _ a b => estrs a ++ estrs b
  | RUn _ _ a => estrs a
  | _ => []
  end.

Definition clist (f : rexpr -> Z -> list sins) :=
  fix go (es : list rexpr) (k : Z) : list sins :=
    match es with
    | [] => []
    | e :: t => f e k ++ go t (k + zlen (estrs e))
    end.

Section Compile.
  Variable m : slots.
  Variable sx : bytes -> Z.

  Definition setd (d : vdecl) : sins :=
    SI (match vd_kind d with
        | KLocal | KArg => I1 INS_SETV (assoc m (vd_id d))
        | KGlobal => I1 INS_SETG (assoc m (vd_id d))
        end).
  Definition getd (d : vdecl) : sins :=
    SI (match vd_kind d with
        | KLocal | KArg => I1 INS_GETV (assoc m (vd_id d))
        | KGlobal => I1 INS_GETG (assoc m (vd_id d))
        end).

  Fixpoint cexpr (e : rexpr) (k : Z) {struct e} : list sins :=
    match e with
    | RInt _ v _ => [SI (I1 INS_NEW_INT v)]
    | RFloat f _ => [SI (I1 INS_NEW_FLT (to_i32 (f_to_bits f)))]
    | RStr _ _ => [SI (I1 INS_NEW_STR k)]
    | RNone _ => [SI (I0 INS_NEW_NONE)]
    | RIdent (DV d) _ => [getd d]
    | RIdent (DF f) _ => [if fd_sys f then SI (I1 INS_NEW_SCALL (sx (fd_name f))) else SFn f]
    | RMember d _ _ _ => [getd d; SI (I1 INS_GETM k)]
    | RArray _ es => clist cexpr es k ++ [SI (I1 INS_ARY_INIT (zlen es))]
    | RIndex _ a i => cexpr i k ++ cexpr a (k + zlen (estrs i)) ++ [SI (I0 INS_DEREF)]
    | RCall _ f es =>
        clist cexpr es k ++
        match f with
        | RIdent (DF fd) _ =>
            [if fd_sys fd then SI (I2 INS_SCALL (zlen es) (sx (fd_name fd))) else SCall (zlen es) fd]
        | _ => cexpr f (k + zlen (flat_map estrs es)) ++ [SI (I1 INS_ICALL (zlen es))]
        end
    | RBin o _ a b => cexpr a k ++ cexpr b (k + zlen (estrs a)) ++ [SI (I0 (ins_of_bin o))]
    | RUn o _ a => cexpr a k ++ [SI (I0 (ins_of_un o))]
    end.
  Definition cexprs := clist cexpr.

  Fixpoint sstrs (x : rstmt) : list bytes :=
    match x with
    | RVar d oe =>
        match vd_kind d with
        | KLocal => if vd_const d then [] else match oe with Some e => estrs e | None => [] end
        | _ => []
        end
    | RAssign _ _ e => estrs e
    | RSetMem _ _ x _ e => estrs e ++ [x]
    | RSetIdx _ _ i e => estrs e ++ estrs i
    | RCallS l f es => estrs (RCall l f es)
    | RIf _ c t f =>
        estrs c ++ match t with Some b => flat_map sstrs b | None => [] end
                ++ match f with Some b => flat_map sstrs b | None => [] end
    | RWhile _ c b => match b with Some b => flat_map sstrs b | None => [] end ++ estrs c
    | RFor _ _ _ a b body => estrs a ++ flat_map sstrs body ++ estrs b
    | RReturn _ oe => match oe with Some e => estrs e | None => [] end
    end.
  Definition ostrs (o : option (list rstmt)) : list bytes :=
    match o with Some b => flat_map sstrs b | None => [] end.

  Definition cseq (f : rstmt -> Z -> Z -> list sins) :=
    fix go (b : list rstmt) (base k : Z) : list sins :=
      match b with
      | [] => []
      | x :: t => let c := f x base k in c ++ go t (base + clen c) (k + zlen (sstrs x))
      end.

  Variable space : Z.

  (** [base] is the address of the first instruction. *)
  Fixpoint cstmt (x : rstmt) (base k : Z) {struct x} : list sins :=
    let oblock o base k := match o with Some b => cseq cstmt b base k | None => [] end in
    match x with
    | RVar d oe =>
        match vd_kind d with
        | KLocal =>
            if vd_const d then [] else
            match oe with
            | Some e => cexpr e k ++ [SI (I1 INS_SETV (assoc m (vd_id d)))]
            | None => []
            end
        | _ => []
        end
    | RAssign d _ e => cexpr e k ++ [setd d]
    | RSetMem d _ _ _ e => cexpr e k ++ [getd d; SI (I1 INS_SETM (k + zlen (estrs e)))]
    | RSetIdx d _ i e =>
        cexpr e k ++ cexpr i (k + zlen (estrs e)) ++ [getd d; SI (I0 INS_SETA)]
    | RCallS l f es => cexpr (RCall l f es) k ++ [SI (I1 INS_POP 1)]
    | RIf _ c t f =>
        let cc := cexpr c k in
        let k1 := k + zlen (estrs c) in
        let b1 := base + clen cc + 5 in
        let ct := oblock t b1 k1 in
        match f with
        | None => cc ++ SI (I1 INS_FJMP (b1 + clen ct)) :: ct
        | Some _ =>
            let L0 := b1 + clen ct + 5 in
            let cf := oblock f L0 (k1 + zlen (ostrs t)) in
            cc ++ SI (I1 INS_FJMP L0) :: ct ++ SI (I1 INS_JMP (L0 + clen cf)) :: cf
        end
    | RWhile _ c b =>
        let cb := oblock b (base + 5) k in
        let L1 := base + 5 + clen cb in
        SI (I1 INS_JMP L1) :: cb ++ cexpr c (k + zlen (ostrs b)) ++ [SI (I1 INS_TJMP (base + 5))]
    | RFor _ d _ a b body =>
        let ca := cexpr a k ++ [setd d] in
        let k1 := k + zlen (estrs a) in
        let L0 := base + clen ca + 5 in
        let cb := cseq cstmt body L0 k1 ++ [getd d; SI (I1 INS_NEW_INT 1); SI (I0 INS_ADD); setd d] in
        ca ++ SI (I1 INS_JMP (L0 + clen cb)) :: cb ++
        getd d :: cexpr b (k1 + zlen (flat_map sstrs body)) ++ [SI (I0 INS_LT); SI (I1 INS_TJMP L0)]
    | RReturn _ oe =>
        match oe with Some e => cexpr e k | None => [SI (I0 INS_NEW_NONE)] end ++ [SI (I1 INS_RET space)]
    end.
  Definition cblock := cseq cstmt.
  Definition coblock (o : option (list rstmt)) (base k : Z) : list sins :=
    match o with Some b => cblock b base k | None => [] end.
End Compile.

(** ** The generator *)
(** A syscall nothing is bound to yet. *)
Definition unbound (n : bytes) : syscall_t := Sysc n None.
Definition adds (s s' : cg) (l : list sins) (strs : list bytes) : Prop :=
  g_globals s' = g_globals s /\ (exists x, g_sys s' = g_sys s ++ map unbound x) /\ g_funs s' = g_funs s /\
  g_code s' = g_code s ++ code_of hole l /\ g_strs s' = g_strs s ++ strs /\
  g_map s' = g_map s /\ g_fix s' = g_fix s ++ fixes (pos s) l.

Lemma adds_refl s : adds s s [] [].
Proof. repeat split; [exists []|..]; cbn; now rewrite app_nil_r. Qed.
Lemma adds_pos s s' l t : adds s s' l t -> pos s' = pos s + clen l.
Proof. intros (_ & _ & _ & C & _). unfold pos. rewrite C, zlen_app. reflexivity. Qed.
Lemma adds_strs s s' l t : adds s s' l t -> zlen (g_strs s') = zlen (g_strs s) + zlen t.
Proof. intros (_ & _ & _ & _ & C & _). rewrite C, zlen_app. reflexivity. Qed.
Lemma adds_trans s s1 s2 l1 l2 t1 t2 : adds s s1 l1 t1 -> adds s1 s2 l2 t2 -> adds s s2 (l1 ++ l2) (t1 ++ t2).
Proof.
  intros A B. pose proof (adds_pos _ _ _ _ A) as P. destruct A as (A1 & (x & A2) & A3 & A4 & A5 & A6 & A7).
  destruct B as (B1 & (y & B2) & B3 & B4 & B5 & B6 & B7). rewrite P in B7.
  repeat split; try congruence.
  - exists (x ++ y). rewrite B2, A2, map_app, <- app_assoc. reflexivity.
  - rewrite B4, A4, code_of_app, <- app_assoc. reflexivity.
  - rewrite B5, A5, <- app_assoc. reflexivity.
  - rewrite B7, A7, fixes_app, <- app_assoc. reflexivity.
Qed.

Lemma put_adds x t s s' : put x t s = Ok s' -> adds s s' [SI x] [].
Proof.
  unfold put. intros E. inv_bind E. inversion E; subst. clear E.
  repeat split; cbn [g_globals g_sys g_funs g_code g_strs g_map g_fix]; try (rewrite app_nil_r; reflexivity).
  - exists []. now rewrite app_nil_r.
  - unfold code_of, sbytes, enc. cbn [flat_map linked_ins]. rewrite E0, app_nil_r. reflexivity.
Qed.
Lemma put_fix_adds x i f t s s' : swidth (SI x) = swidth i -> (sbytes hole (SI x) = sbytes hole i) ->
  match i with SI _ => False | SCall _ g | SFn g => g = f end ->
  put x t s = Ok s' -> adds s (add_fix f s') [i] [].
Proof.
  intros W B F E. apply put_adds in E. pose proof (adds_pos _ _ _ _ E) as P.
  destruct E as (A1 & A2 & A3 & A4 & A5 & A6 & A7).
  unfold add_fix. repeat split; cbn [g_globals g_sys g_funs g_code g_strs g_map g_fix]; try assumption.
  - rewrite A4. unfold code_of. cbn [flat_map]. rewrite B. reflexivity.
  - rewrite A7. unfold fixup_at. rewrite P. cbn [fixes app]. rewrite clen1, W, app_nil_r.
    destruct i; try contradiction; subst; reflexivity.
Qed.

(** Syscall numbers never change once given. *)
Definition sx_ok (sx : bytes -> Z) (l : list syscall_t) : Prop :=
  forall n i, find_syscall l n 0 = Some i -> sx n = i.
Lemma find_syscall_app l x n : forall k i, find_syscall l n k = Some i -> find_syscall (l ++ x) n k = Some i.
Proof.
  induction l as [|s l IH]; intros k i; cbn [find_syscall app]; [discriminate|].
  destruct (bytes_eqb (s_name s) n); [auto|]. apply IH.
Qed.
Lemma sx_ok_prefix sx l x : sx_ok sx (l ++ x) -> sx_ok sx l.
Proof. intros H n i E. apply H. now apply find_syscall_app. Qed.
Lemma sx_ok_adds sx s s' l t : adds s s' l t -> sx_ok sx (g_sys s') -> sx_ok sx (g_sys s).
Proof. intros (_ & (x & E) & _) H. rewrite E in H. eapply sx_ok_prefix. exact H. Qed.
Lemma find_syscall_new l n : forall k, find_syscall l n k = None ->
  find_syscall (l ++ [Sysc n None]) n k = Some (k + zlen l).
Proof.
  induction l as [|s l IH]; intros k E; cbn [find_syscall app] in *.
  - cbn [s_name]. rewrite bytes_eqb_refl. f_equal. unfold zlen. cbn. lia.
  - destruct (bytes_eqb (s_name s) n); [discriminate|]. rewrite IH by exact E. f_equal. rewrite zlen_cons. lia.
Qed.
Lemma add_sys_ok n s i s' : add_sys n s = (i, s') -> adds s s' [] [] /\ find_syscall (g_sys s') n 0 = Some i.
Proof.
  unfold add_sys, add_syscall. destruct (find_syscall (g_sys s) n 0) as [j|] eqn:E; intros H; inversion H; subst; clear H.
  - split; [|exact E]. destruct s. repeat split; [exists []|..]; cbn; now rewrite app_nil_r.
  - split.
    + repeat split; cbn [g_globals g_sys g_funs g_code g_strs g_map g_fix]; try (cbn; now rewrite app_nil_r).
      exists [n]. reflexivity.
    + cbn [g_sys]. apply find_syscall_new in E. rewrite E. reflexivity.
Qed.
Lemma add_string_ok x s i s' : add_string x s = (i, s') -> adds s s' [] [x] /\ i = zlen (g_strs s).
Proof.
  unfold add_string. intros H. inversion H; subst. split; [|reflexivity].
  repeat split; cbn [g_globals g_sys g_funs g_code g_strs g_map g_fix]; try (cbn; now rewrite app_nil_r).
  exists []. now rewrite app_nil_r.
Qed.
Lemma assert_ok b u : assert_ b = Ok u -> b = true.
Proof. unfold assert_. destruct b; [reflexivity|discriminate]. Qed.
Lemma set_decl_adds m d t s s' : set_decl m d t s = Ok s' -> adds s s' [setd m d] [] /\ vd_const d = false.
Proof.
  unfold set_decl, setd. intros E. inv_bind E. apply assert_ok in E0.
  split; [|now destruct (vd_const d)]. destruct (vd_kind d); eapply put_adds; exact E.
Qed.
Lemma get_decl_adds m d t s s' : get_decl m d t s = Ok s' -> adds s s' [getd m d] [] /\ vd_const d = false.
Proof.
  unfold get_decl, getd. intros E. inv_bind E. apply assert_ok in E0.
  split; [|now destruct (vd_const d)]. destruct (vd_kind d); eapply put_adds; exact E.
Qed.
Lemma adds_eq s s' l l' t t' : adds s s' l t -> l = l' -> t = t' -> adds s s' l' t'.
Proof. intros; subst; assumption. Qed.

Lemma le32_i32 z : le32 (to_i32 z) = le32 z.
Proof.
  assert (to_u32 (to_i32 z) = to_u32 z) as E; [|unfold le32; now rewrite E].
  unfold to_u32, to_i32. destruct (z mod 4294967296 <? 2147483648).
  - apply Z.mod_mod. lia.
  - replace (z mod 4294967296 - 4294967296) with (z mod 4294967296 + (-1) * 4294967296) by lia.
    rewrite Z_mod_plus_full. apply Z.mod_mod. lia.
Qed.

Section GenExpr.
  Variable m : slots.
  Definition gen_good (e : rexpr) : Prop := forall s s', gen_expr m e s = Ok s' ->
    (forall sx, sx_ok sx (g_sys s') -> adds s s' (cexpr m sx e (zlen (g_strs s))) (estrs e)).
  Lemma gen_list es : Forall gen_good es -> forall s s', walk (gen_expr m) es s = Ok s' ->
    forall sx, sx_ok sx (g_sys s') -> adds s s' (cexprs m sx es (zlen (g_strs s))) (flat_map estrs es).
  Proof.
    induction 1 as [|e es H F IH]; intros s s' E sx X; cbn [walk] in E.
    - inversion E; subst. apply adds_refl.
    - inv_bind E. specialize (IH _ _ E sx X). specialize (H _ _ E0 sx (sx_ok_adds _ _ _ _ _ IH X)).
      eapply adds_eq; [eapply adds_trans; [exact H|exact IH]| |reflexivity].
      cbn [cexprs clist]. fold (cexprs m sx). rewrite (adds_strs _ _ _ _ H). reflexivity.
  Qed.
  Lemma gen_expr_good e : gen_good e.
  Proof.
    induction e using rexpr_nested; intros st st' E sx X; cbn [gen_expr] in E.
    - eapply put_adds; exact E.
    - apply put_adds in E. destruct E as (A1 & A2 & A3 & A4 & A5 & A6 & A7).
      repeat split; try assumption. rewrite A4. cbn [cexpr]. unfold code_of, sbytes, enc, emit, emit1.
      cbn [flat_map linked_ins]. rewrite le32_i32. reflexivity.
    - destruct (add_string s st) as [k s1] eqn:A. apply add_string_ok in A. destruct A as [A ->].
      apply put_adds in E. exact (adds_trans _ _ _ _ _ _ _ A E).
    - eapply put_adds; exact E.
    - destruct x as [d|f].
      + now apply get_decl_adds in E.
      + unfold get_func in E. cbn [cexpr estrs]. destruct (fd_sys f) eqn:S.
        * destruct (find_syscall (g_sys st) (fd_name f) 0) as [i|] eqn:FS; [|discriminate].
          apply put_adds in E. rewrite (sx_ok_adds _ _ _ _ _ E X _ _ FS). exact E.
        * inv_bind E. inversion E; subst.
          refine (put_fix_adds _ (SFn f) f _ _ _ _ _ _ E0); reflexivity.
    - destruct (add_string m0 st) as [k s1] eqn:A. apply add_string_ok in A. destruct A as [A ->].
      inv_bind E. apply get_decl_adds in E0. destruct E0 as [E0 _]. apply put_adds in E.
      pose proof (adds_trans _ _ _ _ _ _ _ (adds_trans _ _ _ _ _ _ _ A E0) E) as T. exact T.
    - inv_bind E. inv_bind E. apply put_adds in E. pose proof (sx_ok_adds _ _ _ _ _ E X) as X1.
      pose proof (gen_list es H _ _ E0 sx X1) as G. eapply adds_eq; [eapply adds_trans; [exact G|exact E]|reflexivity|].
      cbn [estrs]. now rewrite app_nil_r.
    - inv_bind E. inv_bind E. apply put_adds in E. pose proof (sx_ok_adds _ _ _ _ _ E X) as X1.
      pose proof (IHe1 _ _ E1 sx X1) as G2. pose proof (sx_ok_adds _ _ _ _ _ G2 X1) as X2.
      pose proof (IHe2 _ _ E0 sx X2) as G1. rewrite (adds_strs _ _ _ _ G1) in G2.
      eapply adds_eq; [eapply adds_trans; [exact G1|eapply adds_trans; [exact G2|exact E]]|reflexivity|].
      cbn [estrs]. now rewrite app_nil_r.
    - inv_bind E. rename a into s1.
      assert (Other : forall s2, gen_expr m e s1 = Ok s2 -> put (I1 INS_ICALL (count es)) (Some l) s2 = Ok st' ->
        adds st st' (cexprs m sx es (zlen (g_strs st)) ++ cexpr m sx e (zlen (g_strs st) + zlen (flat_map estrs es)) ++
                   [SI (I1 INS_ICALL (zlen es))]) (estrs (RCall l e es))).
      { intros s2 E1 E2. apply put_adds in E2. pose proof (sx_ok_adds _ _ _ _ _ E2 X) as X1.
        pose proof (IHe _ _ E1 sx X1) as G2. pose proof (sx_ok_adds _ _ _ _ _ G2 X1) as X2.
        pose proof (gen_list es H _ _ E0 sx X2) as G1. rewrite (adds_strs _ _ _ _ G1) in G2.
        eapply adds_eq; [eapply adds_trans; [exact G1|eapply adds_trans; [exact G2|exact E2]]|reflexivity|].
        cbn [estrs]. now rewrite app_nil_r. }
      cbn [cexpr]. fold (cexprs m sx).
      destruct e; try (inv_bind E; exact (Other _ E1 E)).
      destruct d as [d|fd]; [inv_bind E; exact (Other _ E1 E)|]. clear Other.
      inv_bind E. cbn [estrs]. destruct (fd_sys fd) eqn:S.
      + destruct (add_sys (fd_name fd) s1) as [i s2] eqn:A. apply add_sys_ok in A. destruct A as [A F].
        apply put_adds in E. pose proof (sx_ok_adds _ _ _ _ _ E X) as X2. rewrite (X2 _ _ F).
        pose proof (sx_ok_adds _ _ _ _ _ A X2) as X1. pose proof (gen_list es H _ _ E0 sx X1) as G1.
        eapply adds_eq; [eapply adds_trans; [exact G1|eapply adds_trans; [exact A|exact E]]|reflexivity|reflexivity].
      + inv_bind E. inversion E; subst.
        assert (P : adds s1 (add_fix fd a0) [SCall (count es) fd] []).
        { refine (put_fix_adds _ (SCall (count es) fd) fd _ _ _ _ _ _ E2); reflexivity. }
        pose proof (gen_list es H _ _ E0 sx (sx_ok_adds _ _ _ _ _ P X)) as G1.
        eapply adds_eq; [eapply adds_trans; [exact G1|exact P]|reflexivity|reflexivity].
    - inv_bind E. inv_bind E. apply put_adds in E. pose proof (sx_ok_adds _ _ _ _ _ E X) as X1.
      pose proof (IHe2 _ _ E1 sx X1) as G2. pose proof (sx_ok_adds _ _ _ _ _ G2 X1) as X2.
      pose proof (IHe1 _ _ E0 sx X2) as G1. rewrite (adds_strs _ _ _ _ G1) in G2.
      eapply adds_eq; [eapply adds_trans; [exact G1|eapply adds_trans; [exact G2|exact E]]|reflexivity|].
      cbn [estrs]. now rewrite app_nil_r.
    - inv_bind E. apply put_adds in E. pose proof (sx_ok_adds _ _ _ _ _ E X) as X1.
      pose proof (IHe _ _ E0 sx X1) as G1.
      eapply adds_eq; [eapply adds_trans; [exact G1|exact E]|reflexivity|].
      cbn [estrs]. now rewrite app_nil_r.
  Qed.
End GenExpr.

Definition is_jump (i : instr) : Prop := i = INS_JMP \/ i = INS_TJMP \/ i = INS_FJMP.
Lemma sbytes1 fa op v : is_jump op -> sbytes fa (SI (I1 op v)) = opcode op :: le32 v.
Proof. intros [-> | [-> | ->]]; reflexivity. Qed.
Lemma swidth_jump op v : is_jump op -> swidth (SI (I1 op v)) = 5.
Proof. intros J. unfold swidth. rewrite sbytes1 by exact J. rewrite zlen_cons, le32_len. reflexivity. Qed.

Lemma fixup_middle a b c v : zlen b = 4 ->
  apply_fixup (a ++ b ++ c) (zlen a) v = Ok (a ++ le32 v ++ c).
Proof.
  intros L. unfold apply_fixup. pose proof (zlen_nonneg a). pose proof (zlen_nonneg c).
  rewrite !zlen_app. replace ((0 <=? zlen a) && (zlen a + 4 <=? zlen a + (zlen b + zlen c))) with true by lia.
  rewrite zfirstn_app. replace (zlen a + 4) with (zlen (a ++ b)) by (rewrite zlen_app; lia).
  rewrite (app_assoc a b c), zskipn_app. reflexivity.
Qed.

Lemma fixes_jump base op v v' A B : fixes base (A ++ SI (I1 op v) :: B) = fixes base (A ++ SI (I1 op v') :: B).
Proof. rewrite !fixes_app. cbn [fixes]. unfold swidth, sbytes, enc, emit. cbn [linked_ins]. destruct op; reflexivity. Qed.

Lemma patch_adds s s' s'' A B op v0 v t at_ : is_jump op ->
  adds s s' (A ++ SI (I1 op v0) :: B) t -> at_ = pos s + clen A + 1 -> patch at_ v s' = Ok s'' ->
  adds s s'' (A ++ SI (I1 op v) :: B) t.
Proof.
  intros J (A1 & A2 & A3 & A4 & A5 & A6 & A7) -> P. unfold patch in P. inv_bind P. inversion P; subst. clear P.
  repeat split; cbn [g_globals g_sys g_funs g_code g_strs g_map g_fix]; try assumption.
  - rewrite A4 in E. rewrite !code_of_app in *. change (SI (I1 op v0) :: B) with ([SI (I1 op v0)] ++ B) in E.
    change (SI (I1 op v) :: B) with ([SI (I1 op v)] ++ B). rewrite !code_of_app in *.
    unfold code_of at 2 in E. cbn [flat_map] in E. unfold code_of at 2. cbn [flat_map].
    rewrite !sbytes1 in * by exact J. rewrite app_nil_r in *. cbn [app] in *.
    replace (pos s + clen A + 1) with (zlen (g_code s ++ code_of hole A ++ [opcode op])) in E
      by (rewrite !zlen_app, zlen_cons, zlen_nil; unfold pos, clen; lia).
    replace (g_code s ++ code_of hole A ++ opcode op :: le32 v0 ++ code_of hole B) with
      ((g_code s ++ code_of hole A ++ [opcode op]) ++ le32 v0 ++ code_of hole B) in E
      by (rewrite <- !app_assoc; reflexivity).
    rewrite fixup_middle in E by apply le32_len. inversion E; subst. rewrite <- !app_assoc. reflexivity.
  - rewrite A7. f_equal. apply fixes_jump.
Qed.

Definition gen_stmt_good m space (x : rstmt) : Prop := forall s s', gen_stmt m space x s = Ok s' ->
  forall sx, sx_ok sx (g_sys s') -> adds s s' (cstmt m sx space x (pos s) (zlen (g_strs s))) (sstrs x).
Lemma gen_walk m space b : Forall (gen_stmt_good m space) b -> forall s s', walk (gen_stmt m space) b s = Ok s' ->
  forall sx, sx_ok sx (g_sys s') -> adds s s' (cblock m sx space b (pos s) (zlen (g_strs s))) (flat_map sstrs b).
Proof.
  induction 1 as [|x b H F IH]; intros s s' E sx X; cbn [walk] in E.
  - inversion E; subst. apply adds_refl.
  - inv_bind E. specialize (IH _ _ E sx X). specialize (H _ _ E0 sx (sx_ok_adds _ _ _ _ _ IH X)).
    eapply adds_eq; [eapply adds_trans; [exact H|exact IH]| |reflexivity].
    cbn [cblock cseq]. fold (cblock m sx space). rewrite (adds_strs _ _ _ _ H), (adds_pos _ _ _ _ H). reflexivity.
Qed.
Lemma gen_oblock m space o : oall (gen_stmt_good m space) o -> forall s s',
  match o with None => Ok s | Some b => walk (gen_stmt m space) b s end = Ok s' ->
  forall sx, sx_ok sx (g_sys s') -> adds s s' (coblock m sx space o (pos s) (zlen (g_strs s))) (ostrs o).
Proof.
  destruct o as [b|]; intros H s s' E sx X.
  - now apply gen_walk.
  - inversion E; subst. apply adds_refl.
Qed.


(** Combining the steps, with the lists of instructions left to equations. *)
Lemma adds_jump s s' op t : is_jump op -> put (I1 op 0) t s = Ok s' ->
  adds s s' [SI (I1 op 0)] [] /\ pos s' = pos s + 5.
Proof.
  intros J E. apply put_adds in E. split; [exact E|]. rewrite (adds_pos _ _ _ _ E), clen1, swidth_jump by exact J. reflexivity.
Qed.
Lemma is_jump_f : is_jump INS_FJMP. Proof. unfold is_jump; auto. Qed.
Lemma is_jump_t : is_jump INS_TJMP. Proof. unfold is_jump; auto. Qed.
Lemma is_jump_j : is_jump INS_JMP. Proof. unfold is_jump; auto. Qed.

Ltac norm_app := cbn [app]; rewrite <- ?app_assoc; cbn [app]; rewrite ?app_nil_r; reflexivity.

Lemma gen_stmt_ok m space x : gen_stmt_good m space x.
Proof.
  induction x using rstmt_nested; intros s s' G sx X; cbn [gen_stmt] in G.
  - (* var *) cbn [cstmt sstrs]. destruct (vd_kind d).
    + destruct (vd_const d); [inversion G; subst; apply adds_refl|].
      inv_bind G. destruct e as [e|]; [|inversion G; subst; apply adds_refl].
      inv_bind G. apply put_adds in G.
      pose proof (gen_expr_good m e _ _ E0 sx (sx_ok_adds _ _ _ _ _ G X)) as A.
      eapply adds_eq; [eapply adds_trans; [exact A|exact G]|reflexivity|apply app_nil_r].
    + destruct (vd_const d); [inversion G; subst; apply adds_refl|]. discriminate.
    + inversion G; subst; apply adds_refl.
  - inv_bind G. apply set_decl_adds in G. destruct G as [G _].
    pose proof (gen_expr_good m e _ _ E sx (sx_ok_adds _ _ _ _ _ G X)) as A.
    eapply adds_eq; [eapply adds_trans; [exact A|exact G]|reflexivity|apply app_nil_r].
  - inv_bind G. inv_bind G. destruct (add_string _ _) as [i s3] eqn:S in G. apply add_string_ok in S.
    destruct S as [S ->]. apply get_decl_adds in E0. destruct E0 as [E0 _]. apply put_adds in G.
    pose proof (adds_trans _ _ _ _ _ _ _ E0 (adds_trans _ _ _ _ _ _ _ S G)) as T.
    pose proof (gen_expr_good m e _ _ E sx (sx_ok_adds _ _ _ _ _ T X)) as A.
    eapply adds_eq; [eapply adds_trans; [exact A|exact T]| |reflexivity].
    cbn [cstmt]. rewrite (adds_strs _ _ _ _ E0), (adds_strs _ _ _ _ A). cbn [app].
    rewrite zlen_nil, Z.add_0_r. reflexivity.
  - inv_bind G. inv_bind G. inv_bind G. apply get_decl_adds in E1. destruct E1 as [E1 _]. apply put_adds in G.
    pose proof (adds_trans _ _ _ _ _ _ _ E1 G) as T. pose proof (sx_ok_adds _ _ _ _ _ T X) as X1.
    pose proof (gen_expr_good m _ _ _ E0 sx X1) as B. pose proof (sx_ok_adds _ _ _ _ _ B X1) as X2.
    pose proof (gen_expr_good m e _ _ E sx X2) as A. rewrite (adds_strs _ _ _ _ A) in B.
    eapply adds_eq; [eapply adds_trans; [exact A|eapply adds_trans; [exact B|exact T]]|reflexivity|].
    cbn [sstrs]. rewrite app_nil_r. reflexivity.
  - inv_bind G. apply put_adds in G.
    pose proof (gen_expr_good m _ _ _ E sx (sx_ok_adds _ _ _ _ _ G X)) as A.
    eapply adds_eq; [eapply adds_trans; [exact A|exact G]|reflexivity|apply app_nil_r].
  - (* if *) change (cstmt m sx space (RIf l c t f) (pos s) (zlen (g_strs s))) with
      (let cc := cexpr m sx c (zlen (g_strs s)) in
       let k1 := zlen (g_strs s) + zlen (estrs c) in
       let b1 := pos s + clen cc + 5 in
       let ct := coblock m sx space t b1 k1 in
       match f with
       | None => cc ++ SI (I1 INS_FJMP (b1 + clen ct)) :: ct
       | Some _ =>
           let L0 := b1 + clen ct + 5 in
           let cf := coblock m sx space f L0 (k1 + zlen (ostrs t)) in
           cc ++ SI (I1 INS_FJMP L0) :: ct ++ SI (I1 INS_JMP (L0 + clen cf)) :: cf
       end).
    change (sstrs (RIf l c t f)) with (estrs c ++ ostrs t ++ ostrs f). cbv zeta.
    inv_bind G. inv_bind G. inv_bind G. apply (adds_jump _ _ _ _ is_jump_f) in E0. destruct E0 as [J0 P0].
    assert (K : sx_ok sx (g_sys a1) -> adds s a1 (cexpr m sx c (zlen (g_strs s)) ++
              SI (I1 INS_FJMP 0) :: coblock m sx space t (pos s + clen (cexpr m sx c (zlen (g_strs s))) + 5) (zlen (g_strs s) + zlen (estrs c)))
              (estrs c ++ ostrs t) /\ pos a0 = pos s + clen (cexpr m sx c (zlen (g_strs s))) + 5).
    { intros X1. pose proof (gen_oblock m space t H _ _ E1 sx X1) as B. pose proof (sx_ok_adds _ _ _ _ _ B X1) as X2.
      pose proof (gen_expr_good m c _ _ E sx (sx_ok_adds _ _ _ _ _ J0 X2)) as A.
      rewrite P0, (adds_strs _ _ _ _ J0), (adds_pos _ _ _ _ A), (adds_strs _ _ _ _ A), zlen_nil, Z.add_0_r in B.
      split; [|rewrite P0, (adds_pos _ _ _ _ A); reflexivity].
      eapply adds_eq; [eapply adds_trans; [exact A|eapply adds_trans; [exact J0|exact B]]|reflexivity|reflexivity]. }
    clear E E1. destruct f as [f|].
    + inv_bind G. apply (adds_jump _ _ _ _ is_jump_j) in E. destruct E as [J1 P1].
      inv_bind G. inv_bind G.
      assert (X3 : sx_ok sx (g_sys a3)).
      { unfold patch in E0, G. inv_bind E0. inv_bind G. inversion G; subst. inversion E0; subst. exact X. }
      pose proof (gen_oblock m space (Some f) H0 _ _ E sx X3) as B.
      pose proof (sx_ok_adds _ _ _ _ _ B X3) as X2. pose proof (sx_ok_adds _ _ _ _ _ J1 X2) as X1.
      destruct (K X1) as [A Q]. pose proof (adds_pos _ _ _ _ A) as PA.
      rewrite clen_app, clen_cons, (swidth_jump _ _ is_jump_f) in PA.
      set (cc := cexpr m sx c (zlen (g_strs s))) in *.
      set (ct := coblock m sx space t (pos s + clen cc + 5) (zlen (g_strs s) + zlen (estrs c))) in *.
      assert (S2 : zlen (g_strs a2) = zlen (g_strs s) + zlen (estrs c) + zlen (ostrs t)).
      { rewrite (adds_strs _ _ _ _ J1), (adds_strs _ _ _ _ A), zlen_app, zlen_nil. lia. }
      assert (Q2 : pos a2 = pos s + clen cc + 5 + clen ct + 5) by lia.
      rewrite S2, Q2 in B.
      set (cf := coblock m sx space (Some f) (pos s + clen cc + 5 + clen ct + 5) (zlen (g_strs s) + zlen (estrs c) + zlen (ostrs t))) in *.
      pose proof (adds_trans _ _ _ _ _ _ _ A (adds_trans _ _ _ _ _ _ _ J1 B)) as T.
      apply (adds_eq _ _ _ (cc ++ SI (I1 INS_FJMP 0) :: (ct ++ SI (I1 INS_JMP 0) :: cf)) _ (estrs c ++ ostrs t ++ ostrs (Some f))) in T;
        [|norm_app|norm_app].
      assert (PF : pos a3 = pos s + clen cc + 5 + clen ct + 5 + clen cf) by (rewrite (adds_pos _ _ _ _ B); lia).
      apply (patch_adds _ _ _ _ _ _ _ (pos a2) _ (fixup_at a0) is_jump_f T) in E0;
        [|unfold fixup_at; lia].
      apply (adds_eq _ _ _ ((cc ++ SI (I1 INS_FJMP (pos a2)) :: ct) ++ SI (I1 INS_JMP 0) :: cf) _ (estrs c ++ ostrs t ++ ostrs (Some f))) in E0;
        [|norm_app|reflexivity].
      eapply (patch_adds _ _ _ _ _ _ _ (pos a3) _ (fixup_at a2) is_jump_j E0) in G.
      * eapply adds_eq; [exact G| |reflexivity]. rewrite PF, Q2. norm_app.
      * unfold fixup_at. rewrite clen_app, clen_cons, (swidth_jump _ _ is_jump_f). lia.
    + assert (X1 : sx_ok sx (g_sys a1)).
      { unfold patch in G. inv_bind G. inversion G; subst. exact X. }
      destruct (K X1) as [A Q]. pose proof (adds_pos _ _ _ _ A) as PA.
      rewrite clen_app, clen_cons, (swidth_jump _ _ is_jump_f) in PA.
      apply (patch_adds _ _ _ _ _ _ _ (pos a1) _ (fixup_at a0) is_jump_f A) in G; [|unfold fixup_at; lia].
      eapply adds_eq; [exact G| |cbn [ostrs]; now rewrite app_nil_r]. rewrite PA. do 4 f_equal. lia.
  - (* while *) change (cstmt m sx space (RWhile l c b) (pos s) (zlen (g_strs s))) with
      (let cb := coblock m sx space b (pos s + 5) (zlen (g_strs s)) in
        let L1 := pos s + 5 + clen cb in
        SI (I1 INS_JMP L1) :: cb ++ cexpr m sx c (zlen (g_strs s) + zlen (ostrs b)) ++ [SI (I1 INS_TJMP (pos s + 5))]).
    change (sstrs (RWhile l c b)) with (ostrs b ++ estrs c). cbv zeta.
    inv_bind G. inv_bind G. inv_bind G. inv_bind G. inv_bind G.
    apply (adds_jump _ _ _ _ is_jump_j) in E. destruct E as [J0 P0].
    apply (adds_jump _ _ _ _ is_jump_t) in E2. destruct E2 as [J1 P1].
    assert (X4 : sx_ok sx (g_sys a2)).
    { unfold patch in E3, G. inv_bind E3. inv_bind G. inversion G; subst. inversion E3; subst. exact X. }
    pose proof (sx_ok_adds _ _ _ _ _ J1 X4) as X3.
    pose proof (gen_expr_good m c _ _ E1 sx X3) as C. pose proof (sx_ok_adds _ _ _ _ _ C X3) as X2.
    pose proof (gen_oblock m space b H _ _ E0 sx X2) as B.
    rewrite P0, (adds_strs _ _ _ _ J0), zlen_nil, Z.add_0_r in B.
    rewrite (adds_strs _ _ _ _ B), (adds_strs _ _ _ _ J0), zlen_nil, Z.add_0_r in C.
    set (cb := coblock m sx space b (pos s + 5) (zlen (g_strs s))) in *.
    set (cc := cexpr m sx c (zlen (g_strs s) + zlen (ostrs b))) in *.
    pose proof (adds_pos _ _ _ _ B) as PB. pose proof (adds_pos _ _ _ _ C) as PC.
    pose proof (adds_trans _ _ _ _ _ _ _ J0 (adds_trans _ _ _ _ _ _ _ B (adds_trans _ _ _ _ _ _ _ C J1))) as T.
    apply (adds_eq _ _ _ ((SI (I1 INS_JMP 0) :: cb ++ cc) ++ SI (I1 INS_TJMP 0) :: []) _ (ostrs b ++ estrs c)) in T;
      [|norm_app|norm_app].
    apply (patch_adds _ _ _ _ _ _ _ (pos a) _ (fixup_at a2) is_jump_t T) in E3;
      [|unfold fixup_at; rewrite clen_cons, clen_app, (swidth_jump _ _ is_jump_j); lia].
    apply (adds_eq _ _ _ ([] ++ SI (I1 INS_JMP 0) :: (cb ++ cc ++ [SI (I1 INS_TJMP (pos a))])) _ (ostrs b ++ estrs c)) in E3;
        [|norm_app|reflexivity].
    apply (patch_adds _ _ _ _ _ _ _ (pos a0) _ (fixup_at a) is_jump_j E3) in G;
      [|unfold fixup_at; rewrite clen_nil; lia].
    eapply adds_eq; [exact G| |reflexivity]. rewrite P0, PB, P0. reflexivity.
  - (* for *)
    change (cstmt m sx space (RFor l d lx a b body) (pos s) (zlen (g_strs s))) with
      (let ca := cexpr m sx a (zlen (g_strs s)) ++ [setd m d] in
        let k1 := zlen (g_strs s) + zlen (estrs a) in
        let L0 := pos s + clen ca + 5 in
        let cb := cblock m sx space body L0 k1 ++ [getd m d; SI (I1 INS_NEW_INT 1); SI (I0 INS_ADD); setd m d] in
        ca ++ SI (I1 INS_JMP (L0 + clen cb)) :: cb ++
        getd m d :: cexpr m sx b (k1 + zlen (flat_map sstrs body)) ++ [SI (I0 INS_LT); SI (I1 INS_TJMP L0)]).
    change (sstrs (RFor l d lx a b body)) with (estrs a ++ flat_map sstrs body ++ estrs b). cbv zeta.
    inv_bind G. inv_bind G. inv_bind G. inv_bind G. inv_bind G. inv_bind G. inv_bind G. inv_bind G.
    inv_bind G. inv_bind G. inv_bind G. inv_bind G. inv_bind G.
    rename a0 into s1, a1 into s2, a2 into s3, a3 into s4, a4 into s5, a5 into s6, a6 into s7, a7 into s8,
      a8 into s9, a9 into s10, a10 into s11, a11 into s12, a12 into s13.
    apply set_decl_adds in E0. destruct E0 as [E0 _].
    apply (adds_jump _ _ _ _ is_jump_j) in E1. destruct E1 as [J0 P0].
    apply get_decl_adds in E3. destruct E3 as [E3 _]. apply put_adds in E4. apply put_adds in E5.
    apply set_decl_adds in E6. destruct E6 as [E6 _]. apply get_decl_adds in E7. destruct E7 as [E7 _].
    apply put_adds in E9.
    apply (adds_jump _ _ _ _ is_jump_t) in E10. destruct E10 as [J1 P1].
    assert (X12 : sx_ok sx (g_sys s12)).
    { unfold patch in E11, G. inv_bind E11. inv_bind G. inversion G; subst. inversion E11; subst. exact X. }
    pose proof (adds_trans _ _ _ _ _ _ _ E9 J1) as T3. cbn [app] in T3.
    pose proof (sx_ok_adds _ _ _ _ _ T3 X12) as X10.
    pose proof (gen_expr_good m b _ _ E8 sx X10) as B. pose proof (sx_ok_adds _ _ _ _ _ B X10) as X9.
    pose proof (adds_trans _ _ _ _ _ _ _ E3 (adds_trans _ _ _ _ _ _ _ E4 (adds_trans _ _ _ _ _ _ _ E5 E6))) as T2.
    cbn [app] in T2.
    pose proof (sx_ok_adds _ _ _ _ _ T2 (sx_ok_adds _ _ _ _ _ E7 X9)) as X4.
    pose proof (gen_walk m space body H _ _ E2 sx X4) as W. pose proof (sx_ok_adds _ _ _ _ _ W X4) as X3.
    pose proof (sx_ok_adds _ _ _ _ _ E0 (sx_ok_adds _ _ _ _ _ J0 X3)) as X1.
    pose proof (gen_expr_good m a _ _ E sx X1) as A.
    pose proof (adds_trans _ _ _ _ _ _ _ A E0) as T1. rewrite app_nil_r in T1.
    rewrite P0, (adds_strs _ _ _ _ J0), zlen_nil, Z.add_0_r, (adds_strs _ _ _ _ T1), (adds_pos _ _ _ _ T1) in W.
    set (ca := cexpr m sx a (zlen (g_strs s)) ++ [setd m d]) in *.
    set (cw := cblock m sx space body (pos s + clen ca + 5) (zlen (g_strs s) + zlen (estrs a))) in *.
    rewrite (adds_strs _ _ _ _ E7), (adds_strs _ _ _ _ T2), (adds_strs _ _ _ _ W),
      (adds_strs _ _ _ _ J0), (adds_strs _ _ _ _ T1), !zlen_nil, !Z.add_0_r in B.
    set (cb := cexpr m sx b (zlen (g_strs s) + zlen (estrs a) + zlen (flat_map sstrs body))) in *.
    pose proof (adds_trans _ _ _ _ _ _ _ W T2) as T4. rewrite app_nil_r in T4.
    set (cb2 := cw ++ [getd m d; SI (I1 INS_NEW_INT 1); SI (I0 INS_ADD); setd m d]) in *.
    pose proof (adds_trans _ _ _ _ _ _ _ T1 (adds_trans _ _ _ _ _ _ _ J0 (adds_trans _ _ _ _ _ _ _ T4
      (adds_trans _ _ _ _ _ _ _ E7 (adds_trans _ _ _ _ _ _ _ B T3))))) as T.
    apply (adds_eq _ _ _ ((ca ++ SI (I1 INS_JMP 0) :: cb2 ++ getd m d :: cb ++ [SI (I0 INS_LT)]) ++ SI (I1 INS_TJMP 0) :: []) _
      (estrs a ++ flat_map sstrs body ++ estrs b)) in T;
      [|rewrite <- !app_assoc; cbn [app]; rewrite <- !app_assoc; cbn [app]; rewrite <- !app_assoc; reflexivity|norm_app].
    pose proof (adds_pos _ _ _ _ T1) as PA. pose proof (adds_pos _ _ _ _ T4) as PB.
    pose proof (adds_pos _ _ _ _ B) as PC. pose proof (adds_pos _ _ _ _ E7) as PD. rewrite clen1 in PD.
    pose proof (adds_pos _ _ _ _ E9) as PE.
    apply (patch_adds _ _ _ _ _ _ _ (pos s3) _ (fixup_at s12) is_jump_t T) in E11.
    2:{ unfold fixup_at. rewrite clen_app, clen_cons, clen_app, clen_cons, clen_app, (swidth_jump _ _ is_jump_j). lia. }
    apply (adds_eq _ _ _ (ca ++ SI (I1 INS_JMP 0) :: (cb2 ++ getd m d :: cb ++ [SI (I0 INS_LT); SI (I1 INS_TJMP (pos s3))])) _
      (estrs a ++ flat_map sstrs body ++ estrs b)) in E11;
      [|rewrite <- !app_assoc; cbn [app]; rewrite <- !app_assoc; cbn [app]; rewrite <- !app_assoc; reflexivity|reflexivity].
    apply (patch_adds _ _ _ _ _ _ _ (pos s8) _ (fixup_at s3) is_jump_j E11) in G;
      [|unfold fixup_at; lia].
    eapply adds_eq; [exact G| |reflexivity]. rewrite PB, P0, PA. reflexivity.
  - inv_bind G. apply put_adds in G. destruct e as [e|].
    + pose proof (gen_expr_good m _ _ _ E sx (sx_ok_adds _ _ _ _ _ G X)) as A.
      eapply adds_eq; [eapply adds_trans; [exact A|exact G]|reflexivity|apply app_nil_r].
    + apply put_adds in E. exact (adds_trans _ _ _ _ _ _ _ E G).
Qed.

(** ** Functions and the whole program *)
Section Items.
  Variable m sizes : slots.
  Variable sx : bytes -> Z.
  Variable ng : Z.

  Definition fsize (f : fdecl) : Z := assoc sizes (fd_id f).
  Definition space (f : fdecl) (args : list vdecl) : Z := zlen args + fsize f.
  Definition is_init (f : fdecl) : bool := bytes_eqb (fd_name f) init_name.
  Definition prologue (f : fdecl) : list sins :=
    if is_init f then [SI (I1 INS_GLOBALS ng)]
    else if 0 <? fsize f then [SI (I1 INS_LOCALS (fsize f))] else [].
  Definition epilogue (f : fdecl) (args : list vdecl) (body : list rstmt) : list sins :=
    if negb (is_init f) && ends_in_return body then []
    else [SI (I1 INS_NEW_INT 0); SI (I1 INS_RET (space f args))].
  Definition cfunc (f : fdecl) (args : list vdecl) (body : list rstmt) (base k : Z) : list sins :=
    prologue f ++ cblock m sx (space f args) body (base + clen (prologue f)) k ++ epilogue f args body.

  (** where each function goes: first address and first string *)
  Record place : Type := Place {
    pl_f : fdecl; pl_args : list vdecl; pl_body : list rstmt; pl_base : Z; pl_k : Z
  }.
  Definition pl_code (p : place) : list sins := cfunc (pl_f p) (pl_args p) (pl_body p) (pl_base p) (pl_k p).
  Fixpoint layout (items : list ritem) (base k : Z) : list place :=
    match items with
    | [] => []
    | RFunc f args body _ :: t =>
        let p := Place f args body base k in
        p :: layout t (base + clen (pl_code p)) (k + zlen (flat_map sstrs body))
    | _ :: t => layout t base k
    end.
  Definition placed_function (p : place) : function_t :=
    Func (fd_name (pl_f p)) (pl_base p) (pl_base p + clen (pl_code p))
         (map (ident_of m) (flat_map local_decls (pl_body p))) (map (ident_of m) (pl_args p)).
  Definition item_strs (i : ritem) : list bytes :=
    match i with RFunc _ _ body _ => flat_map sstrs body | _ => [] end.
  Definition item_globals (i : ritem) : list identifier_t :=
    match i with RGlobal d _ => [ident_of m d] | _ => [] end.

  Lemma cfunc_adds f args body lend s s' :
    gen_item m sizes ng (RFunc f args body lend) s = Ok s' -> sx_ok sx (g_sys s') ->
    exists l1 l2 s2 s6, adds s2 s6 (cfunc f args body (pos s) (zlen (g_strs s))) (flat_map sstrs body) /\
      set_func (fd_name f) (set_range (pos s) (pos s)) (g_funs s) = Ok l1 /\
      s2 = Cg (g_globals s) (g_sys s) l1 (g_code s) (g_lines s) (g_strs s) ((fd_name f, pos s) :: g_map s) (g_fix s) /\
      set_func (fd_name f) (set_end (pos s6)) (g_funs s6) = Ok l2 /\
      s' = Cg (g_globals s6) (g_sys s6) l2 (g_code s6) (g_lines s6) (g_strs s6) (g_map s6) (g_fix s6).
  Proof.
    cbn [gen_item]. intros E X. inv_bind E. unfold upd_func in E0. inv_bind E0. inversion E0; subst. clear E0.
    exists a0. set (s2 := map_func _ _ _) in *.
    assert (P2 : pos s2 = pos s) by reflexivity. assert (S2 : g_strs s2 = g_strs s) by reflexivity.
    unfold cfunc, prologue, epilogue, is_init, space, fsize.
    destruct (bytes_eqb (fd_name f) init_name) eqn:I.
    - inv_bind E. inv_bind E. inv_bind E. inv_bind E. unfold upd_func in E. inv_bind E. inversion E; subst. clear E.
      exists a4, s2, a3. cbn [negb andb]. split; [|repeat split; try assumption].
      apply put_adds in E0. apply put_adds in E3. apply put_adds in E4. cbn [g_sys] in X.
      pose proof (sx_ok_adds _ _ _ _ _ E3 (sx_ok_adds _ _ _ _ _ E4 X)) as X1.
      assert (B : adds a a1 (cblock m sx (count args + assoc sizes (fd_id f)) body (pos a) (zlen (g_strs a))) (flat_map sstrs body)).
      { apply gen_walk; [|exact E2|exact X1]. apply Forall_forall. intros. apply gen_stmt_ok. }
      pose proof (adds_strs _ _ _ _ E0) as SA. change (zlen (@nil bytes)) with 0 in SA. rewrite Z.add_0_r, S2 in SA.
      rewrite (adds_pos _ _ _ _ E0), SA, P2 in B.
      eapply adds_eq; [eapply adds_trans; [exact E0|eapply adds_trans; [exact B|eapply adds_trans; [exact E3|exact E4]]]|reflexivity|].
      cbn [app]. now rewrite app_nil_r.
    - inv_bind E. inv_bind E. inv_bind E. unfold upd_func in E. inv_bind E. inversion E; subst. clear E.
      exists a3, s2, a2. cbn [negb andb]. split; [|repeat split; assumption]. cbn [g_sys] in X.
      assert (A : adds s2 a (if 0 <? assoc sizes (fd_id f) then [SI (I1 INS_LOCALS (assoc sizes (fd_id f)))] else []) []).
      { destruct (0 <? assoc sizes (fd_id f)); [eapply put_adds; exact E0|]. inversion E0; subst. apply adds_refl. }
      assert (C : adds a1 a2 (if ends_in_return body then [] else [SI (I1 INS_NEW_INT 0); SI (I1 INS_RET (count args + assoc sizes (fd_id f)))]) []).
      { destruct (ends_in_return body); [inversion E3; subst; apply adds_refl|]. inv_bind E3.
        apply put_adds in E. apply put_adds in E3. exact (adds_trans _ _ _ _ _ _ _ E E3). }
      assert (B : adds a a1 (cblock m sx (count args + assoc sizes (fd_id f)) body (pos a) (zlen (g_strs a))) (flat_map sstrs body)).
      { apply gen_walk; [|exact E2|exact (sx_ok_adds _ _ _ _ _ C X)]. apply Forall_forall. intros. apply gen_stmt_ok. }
      pose proof (adds_strs _ _ _ _ A) as SA. change (zlen (@nil bytes)) with 0 in SA. rewrite Z.add_0_r, S2 in SA.
      rewrite (adds_pos _ _ _ _ A), SA, P2 in B.
      eapply adds_eq; [eapply adds_trans; [exact A|eapply adds_trans; [exact B|exact C]]|reflexivity|].
      cbn [app]. now rewrite app_nil_r.
  Qed.

  Lemma set_func_middle name k done g rest : ~ In name (map f_name done) -> f_name g = name ->
    set_func name k (done ++ g :: rest) = Ok (done ++ k g :: rest).
  Proof.
    intros N E. induction done as [|x t IH]; cbn [app set_func].
    - rewrite E, bytes_eqb_refl. reflexivity.
    - cbn [map In] in N. destruct (bytes_eqb (f_name x) name) eqn:B.
      { apply bytes_eqb_eq in B. tauto. }
      rewrite IH by tauto. reflexivity.
  Qed.

  Definition item_names (i : ritem) : list bytes :=
    match i with RFunc f _ _ _ => [fd_name f] | _ => [] end.
  Lemma function_of_names l : map f_name (flat_map (function_of m) l) = flat_map item_names l.
  Proof. induction l as [|i l IH]; [reflexivity|]. destruct i; cbn; try assumption. now rewrite IH. Qed.

  Lemma walk_items items : forall s s' done,
    walk (gen_item m sizes ng) items s = Ok s' -> sx_ok sx (g_sys s') ->
    g_funs s = done ++ flat_map (function_of m) items ->
    NoDup (map f_name done ++ flat_map item_names items) ->
    let L := layout items (pos s) (zlen (g_strs s)) in
    g_globals s' = g_globals s ++ flat_map item_globals items /\
    (exists x, g_sys s' = g_sys s ++ map unbound x) /\
    g_funs s' = done ++ map placed_function L /\
    g_code s' = g_code s ++ code_of hole (flat_map pl_code L) /\
    g_strs s' = g_strs s ++ flat_map item_strs items /\
    g_map s' = rev (map (fun p => (fd_name (pl_f p), pl_base p)) L) ++ g_map s /\
    g_fix s' = g_fix s ++ fixes (pos s) (flat_map pl_code L).
  Proof.
    induction items as [|i items IH]; intros s s' done E X F N; cbn [walk] in E.
    - inversion E; subst. cbn. repeat rewrite app_nil_r. cbn in F. rewrite app_nil_r in F.
      repeat split; try reflexivity; [exists []; now rewrite app_nil_r|exact F].
    - inv_bind E. rename a into s1. destruct i as [f|d e|f args body lend].
      + cbn [gen_item] in E0. inversion E0; subst s1. exact (IH _ _ _ E X F N).
      + cbn [gen_item] in E0. inversion E0; subst s1. clear E0.
        specialize (IH _ _ done E X F N). cbv zeta in IH. cbn [g_globals g_sys g_funs g_code g_strs g_map g_fix] in IH.
        destruct IH as (A1 & A2 & A3 & A4 & A5 & A6 & A7). cbv zeta. cbn [layout flat_map].
        rewrite <- app_assoc in A1. repeat split; assumption.
      + assert (X1 : sx_ok sx (g_sys s1)).
        { clear -E X. revert s1 E. induction items as [|i items IH]; intros s1 E; cbn [walk] in E.
          - inversion E; subst. exact X.
          - inv_bind E. apply IH in E. clear -E E0. destruct i.
            + inversion E0; subst. exact E.
            + inversion E0; subst. exact E.
            + destruct (cfunc_adds _ _ _ _ _ _ E0 E) as (l1 & l2 & s2 & s6 & A & _ & -> & _ & ->).
              cbn [g_sys] in E. apply (sx_ok_adds _ _ _ _ _ A E). }
        destruct (cfunc_adds _ _ _ _ _ _ E0 X1) as (l1 & l2 & s2 & s6 & A & F1 & S2 & F2 & ->). clear E0.
        cbn [flat_map function_of app] in F. rewrite F in F1. cbn [flat_map item_names app] in N.
        assert (Nd : ~ In (fd_name f) (map f_name done)).
        { apply NoDup_remove_2 in N. intros H. apply N. apply in_app_iff. auto. }
        rewrite set_func_middle in F1 by (auto; reflexivity). inversion F1; subst l1. clear F1.
        assert (G6 : g_funs s6 = done ++ set_range (pos s) (pos s) (Func (fd_name f) 0 0 (map (ident_of m) (flat_map local_decls body))
            (map (ident_of m) args)) :: flat_map (function_of m) items) by (destruct A as (_ & _ & A3 & _); rewrite A3, S2; reflexivity).
        rewrite G6, set_func_middle in F2 by (auto; reflexivity). inversion F2; subst l2. clear F2.
        pose proof (adds_pos _ _ _ _ A) as PA. pose proof (adds_strs _ _ _ _ A) as SA.
        assert (P2 : pos s2 = pos s) by (rewrite S2; reflexivity).
        assert (T2 : g_strs s2 = g_strs s) by (rewrite S2; reflexivity).
        rewrite P2 in PA. rewrite T2 in SA.
        destruct A as (A1 & A2 & A3 & A4 & A5 & A6 & A7).
        cbv zeta. cbn [layout].
        set (p := Place f args body (pos s) (zlen (g_strs s))).
        change (cfunc f args body (pos s) (zlen (g_strs s))) with (pl_code p) in *.
        rewrite PA in E.
        specialize (IH _ _ (done ++ [placed_function p]) E X).
        cbn [g_globals g_sys g_funs g_code g_strs g_map g_fix] in IH.
        destruct IH as (B1 & B2 & B3 & B4 & B5 & B6 & B7).
        { rewrite <- app_assoc. reflexivity. }
        { rewrite map_app, <- app_assoc. exact N. }
        rewrite S2 in *. cbn [g_globals g_sys g_funs g_code g_strs g_map g_fix] in *.
        change (pos (Cg (g_globals s6) (g_sys s6) _ (g_code s6) (g_lines s6) (g_strs s6) (g_map s6) (g_fix s6)))
          with (pos s6) in *.
        rewrite PA, SA in *. rewrite A1 in B1. rewrite A4 in B4. rewrite A5 in B5. rewrite A6 in B6. rewrite A7 in B7.
        cbn [map flat_map item_globals item_strs app pl_f pl_base]. repeat split.
        * exact B1.
        * destruct A2 as (x & A2), B2 as (y & B2). exists (x ++ y). rewrite B2, A2, map_app, app_assoc. reflexivity.
        * rewrite B3, <- app_assoc. reflexivity.
        * rewrite B4, code_of_app, <- app_assoc. reflexivity.
        * rewrite B5, <- app_assoc. reflexivity.
        * rewrite B6. cbn [rev]. rewrite <- app_assoc. reflexivity.
        * rewrite B7, fixes_app, <- app_assoc. reflexivity.
  Qed.
End Items.
