(** Proof support: the line table the generator builds. *)
From Coq Require Import ZArith List Bool Lia ZifyBool.
From Verif Require Import Base BaseFacts F32 Instr InstrSpec InstrProofs Program ProgramProofs VM AbsHeap VmSpec Ast Sema SemaSpec SemaFacts
  Codegen SrcSem CgSpec CgCode CgLayout CgSlots CgStep CgSys CgSim CgLink CgFlow LineSpec.
Import ListNotations.
Open Scope Z_scope.
Open Scope list_scope.

(** ** Table entries of a list of instructions *)
Fixpoint span (l : list note) : Z :=
  match l with [] => 0 | (o, _) :: t => ins_len o + span t end.
Fixpoint marks (a : Z) (l : list note) : list (Z * line_t) :=
  match l with
  | [] => []
  | (o, t) :: r => match t with Some x => [(a, x)] | None => [] end ++ marks (a + ins_len o) r
  end.
Lemma ins_len_pos o : 0 < ins_len o.
Proof. unfold ins_len. destruct o; cbn; lia. Qed.
Lemma span_nonneg l : 0 <= span l.
Proof. induction l as [|[o t] l IH]; cbn [span]; [lia|]. pose proof (ins_len_pos o). lia. Qed.
Lemma span_app a b : span (a ++ b) = span a + span b.
Proof. induction a as [|[o t] a IH]; cbn [app span]; lia. Qed.
Lemma marks_app l r : forall a, marks a (l ++ r) = marks a l ++ marks (a + span l) r.
Proof.
  induction l as [|[o t] l IH]; intros a; cbn [app marks span].
  - now rewrite Z.add_0_r.
  - rewrite IH, <- app_assoc, Z.add_assoc. reflexivity.
Qed.
Lemma marks_range l : forall a, Forall (fun x => a <= fst x < a + span l) (marks a l).
Proof.
  induction l as [|[o t] l IH]; intros a; cbn [marks span]; [constructor|].
  pose proof (ins_len_pos o). pose proof (span_nonneg l). apply Forall_app. split.
  - destruct t; [constructor; [cbn [fst]; lia|]|]; constructor.
  - eapply Forall_impl; [|apply IH]. cbn beta. intros. lia.
Qed.

(** ** The generator *)
Definition below (s : cg) : Prop := Forall (fun x => fst x < pos s) (g_lines s).
Definition noted (s s' : cg) (l : list note) : Prop :=
  pos s' = pos s + span l /\ (below s -> g_lines s' = g_lines s ++ marks (pos s) l).
Lemma noted_below s s' l : noted s s' l -> below s -> below s'.
Proof.
  intros [P N] B. unfold below. rewrite (N B). apply Forall_app. pose proof (span_nonneg l). split.
  - eapply Forall_impl; [|exact B]. cbn beta. intros. lia.
  - eapply Forall_impl; [|apply marks_range]. cbn beta. intros. lia.
Qed.
Lemma noted_same s s' : pos s' = pos s -> g_lines s' = g_lines s -> noted s s' [].
Proof. intros P L. split; [cbn; lia|]. intros _. cbn. now rewrite L, app_nil_r. Qed.
Lemma noted_trans s s1 s2 l1 l2 : noted s s1 l1 -> noted s1 s2 l2 -> noted s s2 (l1 ++ l2).
Proof.
  intros A B. split.
  - rewrite span_app. destruct A as [A _], B as [B _]. lia.
  - intros H. pose proof (noted_below _ _ _ A H) as H1. destruct A as [P A], B as [_ B].
    rewrite (B H1), (A H), marks_app, P, app_assoc. reflexivity.
Qed.
Lemma noted_eq s s' l l' : noted s s' l -> l = l' -> noted s s' l'.
Proof. intros; subst; assumption. Qed.

Lemma put_noted x t s s' : put x t s = Ok s' -> noted s s' [(ins_op x, t)].
Proof.
  unfold put. intros E. inv_bind E. inversion E; subst. clear E. split.
  - unfold pos. cbn [g_code span]. rewrite zlen_app, (emit_len _ _ E0). unfold ins_len. lia.
  - intros B. cbn [g_lines marks]. destruct t; [|cbn [app]; now rewrite app_nil_r]. cbn [app].
    apply lt_set_append. exact B.
Qed.
Lemma patch_noted a v s s' : patch a v s = Ok s' -> noted s s' [].
Proof.
  unfold patch. intros E. inv_bind E. inversion E; subst. clear E. apply noted_same; [|reflexivity].
  unfold pos. cbn [g_code]. pose proof E0 as E1. unfold apply_fixup in E1.
  destruct ((0 <=? a) && (a + 4 <=? zlen (g_code s))) eqn:C; [|discriminate]. clear E1.
  destruct (apply_fixup_ok (g_code s) a v ltac:(lia) ltac:(lia)) as (c & E & L & _).
  rewrite E in E0. inversion E0; subst. exact L.
Qed.
Lemma add_string_noted x s i s' : add_string x s = (i, s') -> noted s s' [].
Proof. unfold add_string. intros H. inversion H; subst. apply noted_same; reflexivity. Qed.
Lemma add_sys_noted x s i s' : add_sys x s = (i, s') -> noted s s' [].
Proof. unfold add_sys. destruct (add_syscall (g_sys s) x). intros H. inversion H; subst. apply noted_same; reflexivity. Qed.
Lemma add_fix_noted f s : noted s (add_fix f s) [].
Proof. apply noted_same; reflexivity. Qed.
Lemma set_decl_noted m d t s s' : set_decl m d t s = Ok s' -> noted s s' [(writes d, t)].
Proof. unfold set_decl, writes. intros E. inv_bind E. destruct (vd_kind d); exact (put_noted _ _ _ _ E). Qed.
Lemma get_decl_noted m d t s s' : get_decl m d t s = Ok s' -> noted s s' [(reads d, t)].
Proof. unfold get_decl, reads. intros E. inv_bind E. destruct (vd_kind d); exact (put_noted _ _ _ _ E). Qed.

Lemma walk_noted {A} (f : A -> cg -> res cg) (g : A -> list note) l :
  Forall (fun x => forall s s', f x s = Ok s' -> noted s s' (g x)) l ->
  forall s s', walk f l s = Ok s' -> noted s s' (flat_map g l).
Proof.
  induction 1 as [|x l H F IH]; intros s s' E; cbn [walk] in E.
  - inversion E; subst. apply noted_same; reflexivity.
  - inv_bind E. cbn [flat_map]. eapply noted_trans; eauto.
Qed.

Ltac flat := rewrite ?app_nil_r; repeat rewrite <- app_assoc; cbn [app]; rewrite ?app_nil_r; reflexivity.

Lemma expr_noted m e : forall s s', gen_expr m e s = Ok s' -> noted s s' (expr_notes e).
Proof.
  induction e using rexpr_nested; intros st st' E; cbn [gen_expr] in E; cbn [expr_notes].
  - exact (put_noted _ _ _ _ E).
  - exact (put_noted _ _ _ _ E).
  - destruct (add_string s st) as [k s1] eqn:A. apply add_string_noted in A. apply put_noted in E.
    exact (noted_trans _ _ _ _ _ A E).
  - exact (put_noted _ _ _ _ E).
  - destruct x as [d|f]; [exact (get_decl_noted _ _ _ _ _ E)|]. unfold get_func in E. destruct (fd_sys f).
    + destruct (find_syscall (g_sys st) (fd_name f) 0); [|discriminate]. exact (put_noted _ _ _ _ E).
    + inv_bind E. inversion E; subst. apply put_noted in E0. eapply noted_eq; [eapply noted_trans; [exact E0|apply add_fix_noted]|flat].
  - destruct (add_string m0 st) as [k s1] eqn:A. apply add_string_noted in A.
    inv_bind E. apply get_decl_noted in E0. apply put_noted in E.
    exact (noted_trans _ _ _ _ _ A (noted_trans _ _ _ _ _ E0 E)).
  - inv_bind E. inv_bind E. apply put_noted in E. apply (walk_noted _ _ _ H) in E0. exact (noted_trans _ _ _ _ _ E0 E).
  - inv_bind E. inv_bind E. apply put_noted in E. apply IHe2 in E0. apply IHe1 in E1.
    exact (noted_trans _ _ _ _ _ E0 (noted_trans _ _ _ _ _ E1 E)).
  - inv_bind E. apply (walk_noted _ _ _ H) in E0. eapply noted_trans; [exact E0|].
    assert (Other : (s2 <- gen_expr m e a ;; put (I1 INS_ICALL (count es)) (Some l) s2) = Ok st' ->
      noted a st' (expr_notes e ++ [(INS_ICALL, Some l)])).
    { intros E'. inv_bind E'. apply put_noted in E'. apply IHe in E1. exact (noted_trans _ _ _ _ _ E1 E'). }
    destruct e; try exact (Other E). destruct d as [d|fd]; [exact (Other E)|]. clear Other.
    inv_bind E. destruct (fd_sys fd).
    + destruct (add_sys (fd_name fd) a) as [i s2] eqn:A. apply add_sys_noted in A. apply put_noted in E.
      exact (noted_trans _ _ _ _ _ A E).
    + inv_bind E. inversion E; subst. apply put_noted in E2. eapply noted_eq; [eapply noted_trans; [exact E2|apply add_fix_noted]|flat].
  - inv_bind E. inv_bind E. apply put_noted in E. apply IHe1 in E0. apply IHe2 in E1.
    pose proof (noted_trans _ _ _ _ _ E0 (noted_trans _ _ _ _ _ E1 E)) as T. destruct o; exact T.
  - inv_bind E. apply put_noted in E. apply IHe in E0. pose proof (noted_trans _ _ _ _ _ E0 E) as T. destruct o; exact T.
Qed.

Ltac notes_of H :=
  match type of H with
  | put _ _ _ = Ok _ => apply put_noted in H
  | patch _ _ _ = Ok _ => apply patch_noted in H
  | get_decl _ _ _ _ = Ok _ => apply get_decl_noted in H
  | set_decl _ _ _ _ = Ok _ => apply set_decl_noted in H
  | gen_expr _ _ _ = Ok _ => apply expr_noted in H
  end.
Ltac notes_all := repeat match goal with H : ?t |- _ => notes_of H end.
(** find the step that starts at [s] *)
Ltac chain := match goal with
  | H : noted ?s ?s' _ |- noted ?s ?s' _ => exact H
  | H : noted ?s _ _ |- noted ?s _ _ => eapply noted_trans; [exact H|clear H; chain]
  end.

Lemma stmt_noted m sp x : forall s s', gen_stmt m sp x s = Ok s' -> noted s s' (stmt_notes x).
Proof.
  assert (OB : forall o, oall (fun x => forall s s', gen_stmt m sp x s = Ok s' -> noted s s' (stmt_notes x)) o ->
    forall s s', match o with None => Ok s | Some b => walk (gen_stmt m sp) b s end = Ok s' ->
    noted s s' (match o with Some b => flat_map stmt_notes b | None => [] end)).
  { intros [b|] H s s' E; [exact (walk_noted _ _ _ H _ _ E)|]. inversion E; subst. apply noted_same; reflexivity. }
  induction x using rstmt_nested; intros s s' G; cbn [gen_stmt] in G; cbn [stmt_notes].
  - unfold takes_slot. destruct (vd_kind d).
    + destruct (vd_const d); cbn [negb].
      { inversion G; subst. destruct e; apply noted_same; reflexivity. }
      inv_bind G. destruct e as [e|]; [|inversion G; subst; apply noted_same; reflexivity].
      inv_bind G. notes_all. eapply noted_eq; [chain|reflexivity].
    + destruct (vd_const d); [|discriminate]. inversion G; subst. destruct e; apply noted_same; reflexivity.
    + inversion G; subst. destruct e; apply noted_same; reflexivity.
  - inv_bind G. notes_all. eapply noted_eq; [chain|reflexivity].
  - inv_bind G. inv_bind G. destruct (add_string _ _) as [i s3] eqn:S in G. apply add_string_noted in S.
    notes_all. eapply noted_eq; [chain|flat].
  - inv_bind G. inv_bind G. inv_bind G. notes_all. eapply noted_eq; [chain|flat].
  - inv_bind G. change (gen_expr m (RCall l f es) s = Ok a) in E. notes_all. eapply noted_eq; [chain|reflexivity].
  - inv_bind G. inv_bind G. inv_bind G. apply (OB _ H) in E1. destruct f as [f|].
    + inv_bind G. inv_bind G. inv_bind G. apply (OB _ H0) in E3. notes_all. eapply noted_eq; [chain|flat].
    + notes_all. eapply noted_eq; [chain|flat].
  - inv_bind G. inv_bind G. inv_bind G. inv_bind G. inv_bind G. apply (OB _ H) in E0. notes_all. eapply noted_eq; [chain|flat].
  - do 13 inv_bind G. apply (walk_noted _ _ _ H) in E2. notes_all. eapply noted_eq; [chain|flat].
  - inv_bind G. destruct e as [e|]; notes_all; (eapply noted_eq; [chain|flat]).
Qed.

(** ** Functions *)
Definition item_notes (sizes : slots) (i : ritem) : list note :=
  match i with
  | RFunc f args body lend =>
      if is_init f then [(INS_GLOBALS, None)] ++ flat_map stmt_notes body ++ [(INS_NEW_INT, None); (INS_RET, None)]
      else (if 0 <? assoc sizes (fd_id f) then [(INS_LOCALS, fd_line f)] else []) ++ flat_map stmt_notes body ++
           (if ends_in_return body then [] else [(INS_NEW_INT, Some lend); (INS_RET, Some lend)])
  | _ => []
  end.
Lemma upd_func_noted n k s s' : upd_func n k s = Ok s' -> noted s s' [].
Proof. unfold upd_func. intros E. inv_bind E. inversion E; subst. apply noted_same; reflexivity. Qed.
Lemma map_func_noted n k s : noted s (map_func n k s) [].
Proof. apply noted_same; reflexivity. Qed.
Lemma block_noted m sp b s s' : walk (gen_stmt m sp) b s = Ok s' -> noted s s' (flat_map stmt_notes b).
Proof. apply walk_noted. apply Forall_forall. intros. now apply (stmt_noted m sp). Qed.
Lemma item_noted m sizes ng i s s' : gen_item m sizes ng i s = Ok s' -> noted s s' (item_notes sizes i).
Proof.
  destruct i as [f|d e|f args body lend]; cbn [gen_item item_notes]; intros E.
  - inversion E; subst. apply noted_same; reflexivity.
  - inversion E; subst. apply noted_same; reflexivity.
  - inv_bind E. apply upd_func_noted in E0. pose proof (map_func_noted (fd_name f) (pos a) a) as M.
    set (s2 := map_func _ _ _) in *. unfold is_init. destruct (bytes_eqb (fd_name f) init_name).
    + do 4 inv_bind E. apply upd_func_noted in E. apply block_noted in E2. notes_all. eapply noted_eq; [chain|flat].
    + do 3 inv_bind E. apply upd_func_noted in E. apply block_noted in E2.
      assert (A : noted s2 a0 (if 0 <? assoc sizes (fd_id f) then [(INS_LOCALS, fd_line f)] else [])).
      { destruct (0 <? assoc sizes (fd_id f)); [exact (put_noted _ _ _ _ E1)|]. inversion E1; subst. apply noted_same; reflexivity. }
      assert (B : noted a1 a2 (if ends_in_return body then [] else [(INS_NEW_INT, Some lend); (INS_RET, Some lend)])).
      { destruct (ends_in_return body); [inversion E3; subst; apply noted_same; reflexivity|]. inv_bind E3. notes_all.
        eapply noted_eq; [chain|flat]. }
      eapply noted_eq; [chain|flat].
Qed.

Definition all_notes (items : list ritem) (n : nat) : list note :=
  flat_map (item_notes (snd (offsets (add_init items n)))) (add_init items n).
Lemma generate_lines items n p : generate items n = Ok p -> p_lines p = marks 0 (all_notes items n).
Proof.
  unfold generate, all_notes. set (g := add_init items n). destruct (offsets g) as [m sizes] eqn:O. cbn [snd]. intros E.
  inv_bind E. inv_bind E. inversion E; subst. clear E. cbn [p_lines].
  assert (K : g_lines a0 = g_lines a).
  { clear -E1. revert E1. generalize (g_fix a). intros l. revert a. induction l as [|x l IH]; intros a E; cbn [walk] in E.
    - inversion E; reflexivity.
    - inv_bind E. rewrite (IH _ E). unfold apply_call in E0. destruct (fd_line (fst x)); [|discriminate].
      unfold patch in E0. inv_bind E0. inversion E0; reflexivity. }
  rewrite K. apply (walk_noted _ (item_notes sizes)) in E0.
  - destruct E0 as [_ E0]. rewrite E0; [reflexivity|constructor].
  - apply Forall_forall. intros. now apply (item_noted m sizes (zlen (filter is_var_global g))).
Qed.

(** ** Where the instructions are *)
Definition op_of (x : sins) : instr := ins_op (linked_ins hole x).
Lemma op_of_any fa x : ins_op (linked_ins fa x) = op_of x.
Proof. destruct x; reflexivity. Qed.

Section Ops.
  Variable m : slots.
  Variable sx : bytes -> Z.
  Lemma op_get d : op_of (getd m d) = reads d.
  Proof. unfold getd, reads. destruct (vd_kind d); reflexivity. Qed.
  Lemma op_set d : op_of (setd m d) = writes d.
  Proof. unfold setd, writes. destruct (vd_kind d); reflexivity. Qed.
  Lemma ops_list es : Forall (fun e => forall k, map op_of (cexpr m sx e k) = map fst (expr_notes e)) es ->
    forall k, map op_of (cexprs m sx es k) = map fst (flat_map expr_notes es).
  Proof.
    induction 1 as [|e es H F IH]; intros k; [reflexivity|]. cbn [cexprs clist flat_map]. fold (cexprs m sx).
    rewrite !map_app, H, IH. reflexivity.
  Qed.
  Lemma ops_expr e : forall k, map op_of (cexpr m sx e k) = map fst (expr_notes e).
  Proof.
    induction e using rexpr_nested; intros k; cbn [cexpr expr_notes]; fold (cexprs m sx);
      rewrite ?map_app, ?IHe, ?IHe1, ?IHe2, ?(ops_list es H); try reflexivity.
    - destruct x as [d|f]; cbn [map]; [rewrite op_get; reflexivity|]. destruct (fd_sys f); reflexivity.
    - cbn [map]. rewrite op_get. reflexivity.
    - f_equal. assert (K : forall k, map op_of (cexpr m sx e k ++ [SI (I1 INS_ICALL (zlen es))]) = map fst (expr_notes e ++ [(INS_ICALL, Some l)])).
      { intros k'. rewrite !map_app, IHe. reflexivity. }
      destruct e; try apply K. destruct d as [d|fd]; [apply K|]. destruct (fd_sys fd); reflexivity.
  Qed.
  Variable sp : Z.
  Lemma ops_block b : Forall (fun x => forall base k, map op_of (cstmt m sx sp x base k) = map fst (stmt_notes x)) b ->
    forall base k, map op_of (cblock m sx sp b base k) = map fst (flat_map stmt_notes b).
  Proof.
    induction 1 as [|x b H F IH]; intros base k; [reflexivity|]. cbn [cblock cseq flat_map]. fold (cblock m sx sp).
    rewrite !map_app, H, IH. reflexivity.
  Qed.
  Lemma ops_oblock o : oall (fun x => forall base k, map op_of (cstmt m sx sp x base k) = map fst (stmt_notes x)) o ->
    forall base k, map op_of (match o with Some b => cblock m sx sp b base k | None => [] end) =
                   map fst (match o with Some b => flat_map stmt_notes b | None => [] end).
  Proof. destruct o; intros H base k; [apply (ops_block _ H)|reflexivity]. Qed.
  Lemma ops_stmt x : forall base k, map op_of (cstmt m sx sp x base k) = map fst (stmt_notes x).
  Proof.
    induction x using rstmt_nested; intros base k; cbn [cstmt stmt_notes]; fold (cblock m sx sp).
    - unfold takes_slot. destruct (vd_kind d); try (destruct e; reflexivity).
      destruct (vd_const d); [destruct e; reflexivity|]. destruct e as [e|]; [|reflexivity]. cbn [negb].
      rewrite !map_app, ops_expr. reflexivity.
    - rewrite !map_app, ops_expr. cbn [map]. rewrite op_set. reflexivity.
    - rewrite !map_app, ops_expr. cbn [map]. rewrite op_get. reflexivity.
    - rewrite !map_app, !ops_expr. cbn [map]. rewrite op_get. reflexivity.
    - change (map op_of (cexpr m sx (RCall l f es) k ++ [SI (I1 INS_POP 1)]) = map fst (expr_notes (RCall l f es) ++ [(INS_POP, Some l)])).
      rewrite !map_app, ops_expr. reflexivity.
    - destruct f as [f|].
      + rewrite !map_app. cbn [map app]. rewrite !map_app. cbn [map]. rewrite ops_expr, (ops_oblock _ H). cbn [oall] in H0. rewrite (ops_block _ H0). reflexivity.
      + rewrite !map_app. cbn [map app]. rewrite ops_expr, (ops_oblock _ H), app_nil_r. reflexivity.
    - cbn [map app]. rewrite !map_app, ops_expr, (ops_oblock _ H). reflexivity.
    - repeat (rewrite map_app; cbn [map app]). rewrite !ops_expr, (ops_block _ H), !op_get, !op_set.
      repeat rewrite <- app_assoc. reflexivity.
    - rewrite !map_app. destruct e; [rewrite ops_expr|]; reflexivity.
  Qed.
  Lemma ops_body b base k : map op_of (cblock m sx sp b base k) = map fst (flat_map stmt_notes b).
  Proof. apply ops_block. apply Forall_forall. intros. apply ops_stmt. Qed.
End Ops.

Lemma ops_func m sizes sx ng p lend :
  map op_of (pl_code m sizes sx ng p) = map fst (item_notes sizes (RFunc (pl_f p) (pl_args p) (pl_body p) lend)).
Proof.
  unfold pl_code, cfunc, prologue, epilogue, fsize, item_notes. rewrite !map_app, ops_body.
  destruct (is_init (pl_f p)); cbn [negb andb]; rewrite !map_app; [reflexivity|].
  destruct (0 <? assoc sizes (fd_id (pl_f p))), (ends_in_return (pl_body p)); reflexivity.
Qed.

Lemma lt_find_skip A B k : Forall (fun x => fst x <> k) A -> lt_find (A ++ B) k = lt_find B k.
Proof.
  induction 1 as [|[k' v] A H F IH]; [reflexivity|]. cbn [app lt_find fst] in *.
  destruct (k =? k') eqn:E; [lia|]. exact IH.
Qed.
Lemma lt_find_marks l o t r base : lt_find (marks base (l ++ (o, t) :: r)) (base + span l) = t.
Proof.
  rewrite marks_app, lt_find_skip.
  - cbn [marks]. destruct t as [x|]; cbn [app lt_find].
    + now rewrite Z.eqb_refl.
    + rewrite <- (app_nil_r (marks _ r)), lt_find_skip; [reflexivity|].
      eapply Forall_impl; [|apply marks_range]. cbn beta. pose proof (ins_len_pos o). intros. lia.
  - eapply Forall_impl; [|apply marks_range]. cbn beta. intros. lia.
Qed.

(** A well-formed piece of code is as long as its listing. *)
Lemma clen_span fa c : Forall (fun x => ins_wf (linked_ins fa x)) c -> forall l, map op_of c = map fst l -> clen c = span l.
Proof.
  induction 1 as [|x c H F IH]; intros [|[o t] l] E; try discriminate; [reflexivity|].
  cbn [map fst] in E. injection E as E1 E2. rewrite clen_cons, (swidth_len fa) by exact H.
  rewrite op_of_any, E1. cbn [span]. now rewrite (IH l E2).
Qed.

Section Listing.
  Variable prog : program_t.
  Variable fa : fdecl -> Z.
  Hypothesis Hlen : 4 < zlen (p_code prog).
  Lemma listed_code c : forall base l, code_at prog fa base c -> map op_of c = map fst l ->
    (forall pre o t post, l = pre ++ (o, t) :: post -> get_line prog (base + span pre) = match t with Some y => y | None => no_line end) ->
    listed prog base l (base + clen c).
  Proof.
    induction c as [|x c IH]; intros base [|[o t] l] C E G; try discriminate.
    - rewrite clen_nil, Z.add_0_r. constructor.
    - cbn [map fst] in E. injection E as E1 E2. apply code_at_cons in C. destruct C as [C1 C2].
      pose proof C1 as C1'. apply (code_at_ins prog fa (fun _ => 0) Hlen) in C1. rewrite <- E1, <- (op_of_any fa).
      destruct C1' as [_ W]. apply Forall_inv in W.
      constructor.
      + exact C1.
      + rewrite <- (G [] o t l eq_refl). cbn [span]. now rewrite Z.add_0_r.
      + rewrite (swidth_len fa) in C2 by exact W. rewrite clen_cons, (swidth_len fa) by exact W. rewrite Z.add_assoc.
        apply IH; [exact C2|exact E2|]. intros pre o' t' post ->.
        rewrite <- (G ((o, t) :: pre) o' t' post eq_refl). cbn [span]. f_equal. rewrite op_of_any, E1. lia.
  Qed.
End Listing.

Lemma layout_notes m sizes sx ng fa p items : forall base k, In p (layout m sizes sx ng items base k) ->
  (forall q, In q (layout m sizes sx ng items base k) -> Forall (fun x => ins_wf (linked_ins fa x)) (pl_code m sizes sx ng q)) ->
  exists lend pre post, In (RFunc (pl_f p) (pl_args p) (pl_body p) lend) items /\
    flat_map (item_notes sizes) items = pre ++ item_notes sizes (RFunc (pl_f p) (pl_args p) (pl_body p) lend) ++ post /\
    pl_base p = base + span pre.
Proof.
  induction items as [|i items IH]; intros base k I W; [contradiction|].
  destruct i as [f|d e|f args body lend]; cbn [layout] in I, W.
  - destruct (IH _ _ I W) as (lend & pre & post & A & B & C). exists lend, pre, post. split; [right; exact A|]. auto.
  - destruct (IH _ _ I W) as (lend & pre & post & A & B & C). exists lend, pre, post. split; [right; exact A|]. auto.
  - cbv zeta in I, W. set (p0 := Place f args body base k) in *. destruct I as [<-|I].
    + exists lend, [], (flat_map (item_notes sizes) items). split; [left; reflexivity|]. split; [reflexivity|].
      cbn [span p0 pl_base]. now rewrite Z.add_0_r.
    + destruct (IH _ _ I) as (lend' & pre & post & A & B & C); [intros q Q; apply W; right; exact Q|].
      exists lend', (item_notes sizes (RFunc f args body lend) ++ pre), post. split; [right; exact A|]. split.
      * cbn [flat_map]. rewrite B, <- app_assoc. reflexivity.
      * rewrite span_app, C, (clen_span fa (pl_code m sizes sx ng p0) (W p0 (or_introl eq_refl)) _ (ops_func m sizes sx ng p0 lend)).
        cbn [p0 pl_f pl_args pl_body]. lia.
Qed.

Lemma layout_marks m sizes sx ng fa a y items : forall base k,
  (forall q, In q (layout m sizes sx ng items base k) -> Forall (fun x => ins_wf (linked_ins fa x)) (pl_code m sizes sx ng q)) ->
  In (a, y) (marks base (flat_map (item_notes sizes) items)) ->
  exists p lend, In p (layout m sizes sx ng items base k) /\
    In (a, y) (marks (pl_base p) (item_notes sizes (RFunc (pl_f p) (pl_args p) (pl_body p) lend))).
Proof.
  induction items as [|i items IH]; intros base k W I; [contradiction|].
  destruct i as [f|d e|f args body lend]; cbn [layout] in W |- *.
  - exact (IH _ _ W I).
  - exact (IH _ _ W I).
  - cbv zeta in W. cbv zeta. set (p0 := Place f args body base k) in *. cbn [flat_map] in I. rewrite marks_app in I.
    apply in_app_iff in I. destruct I as [I|I].
    + exists p0, lend. split; [left; reflexivity|exact I].
    + change (item_notes sizes (RFunc f args body lend)) with (item_notes sizes (RFunc (pl_f p0) (pl_args p0) (pl_body p0) lend)) in I.
      rewrite <- (clen_span fa (pl_code m sizes sx ng p0) (W p0 (or_introl eq_refl)) _ (ops_func m sizes sx ng p0 lend)) in I.
      destruct (IH _ (k + zlen (flat_map sstrs body)) (fun q Q => W q (or_intror Q)) I) as (p & lend' & A & B).
      exists p, lend'. split; [right; exact A|exact B].
Qed.

Lemma marks_starts p y : forall b l e, listed p b l e -> forall a, In (a, y) (marks b l) -> forall c, starts p c b -> starts p c a /\ b <= a < e.
Proof.
  induction 1 as [a0|a0 x t l b A G L IH]; intros a I c S; [contradiction|].
  assert (E : a0 + ins_len (ins_op x) <= b).
  { clear -L. induction L; [lia|]. pose proof (ins_len_pos (ins_op x0)). lia. }
  pose proof (ins_len_pos (ins_op x)). cbn [marks] in I. apply in_app_iff in I. destruct I as [I|I].
  - destruct t as [z|]; [|contradiction]. destruct I as [I|[]]. injection I as -> _. split; [exact S|lia].
  - destruct (IH a I c (starts_next _ _ _ _ S A)) as [K1 K2]. split; [exact K1|lia].
Qed.

(** ** Room for the locals *)
Lemma off_room_block b : Forall (fun x => forall st, 0 <= o_cur st ->
    o_cur st <= o_cur (off_stmt x st) /\ o_max st <= o_max (off_stmt x st) /\
    (0 <? o_max (off_stmt x st)) = (0 <? o_max st) || existsb takes_slot (local_decls x)) b ->
  forall st, 0 <= o_cur st -> o_cur st <= o_cur (off_block b st) /\ o_max st <= o_max (off_block b st) /\
    (0 <? o_max (off_block b st)) = (0 <? o_max st) || existsb takes_slot (flat_map local_decls b).
Proof.
  induction 1 as [|x b H F IH]; intros st C; cbn [off_block flat_map].
  - cbn [existsb]. rewrite orb_false_r. repeat split; lia.
  - destruct (H st C) as (H1 & H2 & H3). destruct (IH (off_stmt x st) ltac:(lia)) as (I1 & I2 & I3).
    rewrite existsb_app, orb_assoc, <- H3. repeat split; [lia|lia|exact I3].
Qed.
Lemma off_room_oblock o : oall (fun x => forall st, 0 <= o_cur st ->
    o_cur st <= o_cur (off_stmt x st) /\ o_max st <= o_max (off_stmt x st) /\
    (0 <? o_max (off_stmt x st)) = (0 <? o_max st) || existsb takes_slot (local_decls x)) o ->
  forall st, 0 <= o_cur st -> o_cur st <= o_cur (off_oblock o st) /\ o_max st <= o_max (off_oblock o st) /\
    (0 <? o_max (off_oblock o st)) = (0 <? o_max st) || existsb takes_slot (match o with None => [] | Some b => flat_map local_decls b end).
Proof.
  destruct o as [b|]; intros H st C; cbn [off_oblock].
  - destruct (off_room_block _ H st C) as (_ & I2 & I3). cbn [o_cur o_max]. repeat split; [lia|exact I2|exact I3].
  - cbn [existsb]. rewrite orb_false_r. repeat split; lia.
Qed.
Lemma off_room x : forall st, 0 <= o_cur st ->
    o_cur st <= o_cur (off_stmt x st) /\ o_max st <= o_max (off_stmt x st) /\
    (0 <? o_max (off_stmt x st)) = (0 <? o_max st) || existsb takes_slot (local_decls x).
Proof.
  induction x using rstmt_nested; intros st C;
    try (cbn [off_stmt local_decls existsb]; rewrite orb_false_r; repeat split; lia).
  - cbn [off_stmt local_decls existsb]. unfold off_var, takes_slot. destruct (vd_kind d); try (cbn [negb orb]; rewrite orb_false_r; repeat split; lia).
    destruct (vd_const d); cbn [negb orb o_cur o_max]; [rewrite orb_false_r; repeat split; lia|]. rewrite orb_true_r. repeat split; lia.
  - rewrite off_if. cbn [local_decls]. destruct (off_room_oblock _ H st C) as (A1 & A2 & A3).
    destruct (off_room_oblock _ H0 (off_oblock t st) ltac:(lia)) as (B1 & B2 & B3).
    rewrite existsb_app, orb_assoc, <- A3. repeat split; [lia|lia|exact B3].
  - rewrite off_while. cbn [local_decls]. exact (off_room_oblock _ H st C).
  - rewrite off_for. cbn [local_decls]. exact (off_room_oblock (Some body) H st C).
Qed.
Lemma off_items_room l : forall m sizes g, NoDup (fun_ids l) -> forall f args body lend, In (RFunc f args body lend) l ->
  (0 <? assoc (snd (off_items l m sizes g)) (fd_id f)) = existsb takes_slot (flat_map local_decls body).
Proof.
  induction l as [|i l IH]; intros m sizes g F f args body lend I; [contradiction|].
  destruct I as [->|I].
  - cbn [off_items fun_ids flat_map app] in *. inversion F as [|? ? F1 F2]; subst.
    set (st := off_block body _).
    destruct (off_items_new l (o_map st) ((fd_id f, o_max st) :: sizes) g) as (new & nsz & E & _ & J). rewrite E. cbn [snd].
    rewrite assoc_skip by (intros H; apply F1, J, H). cbn [assoc]. rewrite PeanoNat.Nat.eqb_refl.
    unfold st. rewrite (proj2 (proj2 (off_room_block body ltac:(apply Forall_forall; intros; now apply off_room) (OSt (off_args (rev args) (-1) m) 0 0) ltac:(cbn; lia)))).
    reflexivity.
  - destruct i as [f'|d e|f' args' body' lend']; cbn [off_items fun_ids flat_map app] in *.
    + eauto.
    + destruct (vd_const d); eauto.
    + inversion F; subst. eauto.
Qed.
