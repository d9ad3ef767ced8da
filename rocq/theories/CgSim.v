(** Proof support: running compiled code follows the source semantics. *)
From Coq Require Import ZArith List Bool Lia ZifyBool.
From Verif Require Import Base BaseFacts F32 Instr InstrSpec InstrProofs Program VM AbsHeap VmSpec VmFacts Ast Sema SemaSpec SemaFacts Codegen SrcSem SrcFacts CgCode CgSlots CgStep CgSys.
Import ListNotations.
Open Scope Z_scope.
Open Scope list_scope.

(** ** Association lists by position *)
Lemma lookup_at {A} (l : list (nat * A)) id x : lookup l id = Some x ->
  exists i, znth l i = Some (id, x) /\ forall v, update l id v = zupd l i (id, v).
Proof.
  induction l as [|[j y] l IH]; cbn [lookup update]; [discriminate|].
  destruct (Nat.eqb j id) eqn:E; intros H.
  - apply Nat.eqb_eq in E. inversion H; subst. exists 0. split; reflexivity.
  - destruct (IH H) as (i & I & U). pose proof (znth_some _ _ _ I). exists (i + 1). split.
    + change ((j, y) :: l) with ([(j, y)] ++ l). change (zlen [(j, y)]) with 1 in *.
      rewrite znth_app2 by (change (zlen [(j, y)]) with 1; lia). change (zlen [(j, y)]) with 1.
      replace (i + 1 - 1) with i by lia. exact I.
    + intros v. rewrite U. change ((j, y) :: l) with ([(j, y)] ++ l).
      rewrite zupd_app2 by (change (zlen [(j, y)]) with 1; lia). change (zlen [(j, y)]) with 1.
      replace (i + 1 - 1) with i by lia. reflexivity.
Qed.
Lemma map_zupd {A B} (f : A -> B) l : forall i x, map f (zupd l i x) = zupd (map f l) i (f x).
Proof.
  induction l as [|y l IH]; intros i x; cbn [zupd map]; [reflexivity|].
  destruct (i =? 0); cbn [map]; [reflexivity|]. now rewrite IH.
Qed.

Lemma zskipn_skipn {A} (l : list A) : forall k, 0 <= k -> zskipn k l = skipn (Z.to_nat k) l.
Proof.
  induction l as [|x l IH]; intros k P; cbn [zskipn]; [now rewrite skipn_nil|].
  destruct (k <=? 0) eqn:Z0; [replace (Z.to_nat k) with O by lia; reflexivity|].
  rewrite IH by lia. replace (Z.to_nat k) with (S (Z.to_nat (k - 1))) by lia. reflexivity.
Qed.

Section Sim.
  Variable prog : program_t.
  Variable items : list ritem.
  Variable fa : fdecl -> Z.
  Variable faddr : nat -> Z.
  Variable m sizes : slots.
  Variable sx : bytes -> Z.
  Variable ng : Z.
  Variable tail : list aval.
  Variable post : list (thread aval).
  Variable keys : list nat.

  Hypothesis Hlen : 4 < zlen (p_code prog).

  Notation run_expr := (run_expr items faddr sx (vm_sys prog)).
  Notation run_exprs := (run_exprs items faddr sx (vm_sys prog)).
  Notation run_call := (run_call items faddr sx (vm_sys prog)).
  Notation run_stmt := (run_stmt items faddr sx (vm_sys prog)).
  Notation run_stmts := (run_stmts items faddr sx (vm_sys prog)).
  Notation run_block := (run_block items faddr sx (vm_sys prog)).
  Notation run_for := (run_for items faddr sx (vm_sys prog)).

  (** ** Code *)
  Definition code_at (a : Z) (l : list sins) : Prop :=
    (exists pre suf, p_code prog = pre ++ code_of fa l ++ suf /\ zlen pre = a) /\
    Forall (fun x => ins_wf (linked_ins fa x)) l.
  Lemma code_at_app a x y : code_at a (x ++ y) -> code_at a x /\ code_at (a + clen x) y.
  Proof.
    intros [(pre & suf & E & L) W]. apply Forall_app in W. destruct W as [W1 W2]. rewrite code_of_app, <- app_assoc in E.
    split; (split; [|assumption]).
    - exists pre, (code_of fa y ++ suf). auto.
    - exists (pre ++ code_of fa x), suf. rewrite <- app_assoc. split; [exact E|]. rewrite zlen_app, zlen_code_of. lia.
  Qed.
  Lemma code_at_cons a x y : code_at a (x :: y) -> code_at a [x] /\ code_at (a + swidth x) y.
  Proof. intros H. rewrite <- clen1. apply code_at_app. exact H. Qed.
  Lemma code_at_ins a x : code_at a [x] -> at_ins prog a (linked_ins fa x).
  Proof.
    intros [(pre & suf & E & L) W]. inversion W; subst. unfold code_of in E. cbn [flat_map] in E. rewrite app_nil_r in E.
    split; [exact Hlen|]. split; [apply zlen_nonneg|]. split; [assumption|].
    unfold sbytes, enc in E.
    assert (exists b, emit (linked_ins fa x) = Ok b) as (b & B).
    { apply emit_ok_iff. destruct (linked_ins fa x); cbn [ins_wf] in H1; tauto. }
     exists b. rewrite B in E. split; [exact B|].
    rewrite E, zskipn_app, zfirstn_app. reflexivity.
  Qed.

  Definition strs_at (k : Z) (l : list bytes) : Prop :=
    exists pre suf, p_strings prog = pre ++ l ++ suf /\ zlen pre = k.
  Lemma strs_at_app k x y : strs_at k (x ++ y) -> strs_at k x /\ strs_at (k + zlen x) y.
  Proof.
    intros (pre & suf & E & L). rewrite <- app_assoc in E. split.
    - exists pre, (y ++ suf). auto.
    - exists (pre ++ x), suf. rewrite <- app_assoc. split; [exact E|]. rewrite zlen_app. lia.
  Qed.
  Lemma strs_at_one k x : strs_at k [x] -> znth (p_strings prog) k = Some x.
  Proof.
    intros (pre & suf & E & L). rewrite E, znth_app2 by lia. rewrite L, Z.sub_diag. reflexivity.
  Qed.

  (** ** Configurations *)
  Definition conf (st : sst) (a : Z) (stk : list aval) (frs : list frame) : config :=
    Cfg (s_heap st) (map snd (s_glob st) ++ tail) (s_world st) (s_new st) post a stk frs None false.
  Definition conf_err (st : sst) (x : terr) (a : Z) (stk : list aval) (frs : list frame) : config :=
    Cfg (s_heap st) (map snd (s_glob st) ++ tail) (s_world st) (s_new st) post a stk frs (Some x) true.
  Definition conf_ret (st : sst) (fr : frame) (rest : list aval) (frs : list frame) (v : aval) : config :=
    Cfg (s_heap st) (map snd (s_glob st) ++ tail) (s_world st) (s_new st) post (fr_ret fr) (v :: rest) frs None
        (fr_term fr || match frs with [] => true | _ => false end).
  Definition leads (c c' : config) : Prop := forall Q, ev prog Q c' -> ev prog Q c.
  Definition crash (c : config) (x : terr) (st : sst) : Prop :=
    forall Q : config -> Prop, (forall a stk frs, Q (conf_err st x a stk frs)) -> ev prog Q c.
  Lemma leads_refl c : leads c c. Proof. intros Q H. exact H. Qed.
  Lemma leads_trans c c1 c2 : leads c c1 -> leads c1 c2 -> leads c c2.
  Proof. intros A B Q H. auto. Qed.
  Lemma leads_crash c c' x st : leads c c' -> crash c' x st -> crash c x st.
  Proof. intros A B Q H. auto. Qed.
  Lemma step_leads c c' : c_fin c = false -> cstep prog c c' -> leads c c'.
  Proof. intros F S Q H. eapply ev_step; eassumption. Qed.
  Lemma step_crash c x st a stk frs : c_fin c = false -> cstep prog c (conf_err st x a stk frs) -> crash c x st.
  Proof. intros F S Q H. eapply ev_step; [exact F|exact S|]. apply ev_now, H. Qed.
  Lemma huge_leads st a stk frs c : i32_max < zlen stk -> leads (conf st a stk frs) c.
  Proof. intros L Q H. apply ev_huge. exact L. Qed.
  Lemma leads_pc c st a b stk frs : leads c (conf st a stk frs) -> a = b -> leads c (conf st b stk frs).
  Proof. intros H <-. exact H. Qed.

  (** ** Variables *)
  Definition glob_ok (st : sst) : Prop :=
    (forall i id v, znth (s_glob st) i = Some (id, v) -> assoc m id = i) /\ map fst (s_glob st) = keys.
  Record frame_ok (r : env) (L : list aval) (rest : list aval) (fr : frame) : Prop := FrameOk {
    fo_sp : fr_sp fr = zlen rest + zlen (v_args r);
    fo_args : forall i id v, znth (v_args r) i = Some (id, v) -> assoc m id = i - zlen (v_args r);
    fo_size : zlen (v_locals r) <= zlen L;
    fo_locals : forall i id o, znth (v_locals r) i = Some (id, o) ->
      assoc m id = zlen (v_locals r) - 1 - i /\
      forall v, o = Some v -> znth L (zlen (v_locals r) - 1 - i) = Some v
  }.
  Definition fstk (r : env) (L rest : list aval) : list aval := rev (map snd (v_args r) ++ L) ++ rest.

  Lemma getd_run d r st v a tmps L rest fr frs : read d r st = Done v -> code_at a [getd m d] ->
    frame_ok r L rest fr -> glob_ok st ->
    leads (conf st a (tmps ++ fstk r L rest) (fr :: frs)) (conf st (a + 5) (v :: tmps ++ fstk r L rest) (fr :: frs)).
  Proof.
    intros R C F G. apply code_at_ins in C. cbn [getd linked_ins] in C. unfold read in R.
    destruct (vd_const d); [discriminate|].
    destruct (Z_le_gt_dec (zlen (tmps ++ fstk r L rest)) i32_max) as [S|S]; [|apply huge_leads; lia].
    destruct (vd_kind d) eqn:K.
    - destruct (lookup (v_locals r) (vd_id d)) as [[x|]|] eqn:E; inversion R; subst.
      destruct (lookup_at _ _ _ E) as (i & I & _). pose proof (znth_some _ _ _ I).
      destruct (fo_locals _ _ _ _ F _ _ _ I) as [A V]. specialize (V v eq_refl).
      apply step_leads; [reflexivity|]. unfold fstk in *.
      eapply st_getv with (j := zlen (map snd (v_args r)) + assoc m (vd_id d)); [exact C|exact S| |].
      + rewrite (fo_sp _ _ _ _ F), zlen_map. lia.
      + rewrite znth_app2 by lia. rewrite A. rewrite <- V. f_equal. lia.
    - destruct (lookup (v_args r) (vd_id d)) as [x|] eqn:E; inversion R; subst.
      destruct (lookup_at _ _ _ E) as (i & I & _). pose proof (znth_some _ _ _ I).
      pose proof (fo_args _ _ _ _ F _ _ _ I) as A.
      apply step_leads; [reflexivity|]. unfold fstk in *.
      eapply st_getv with (j := i); [exact C|exact S| |].
      + rewrite (fo_sp _ _ _ _ F). lia.
      + rewrite znth_app1 by (rewrite zlen_map; lia). rewrite znth_map, I. reflexivity.
    - destruct (lookup (s_glob st) (vd_id d)) as [x|] eqn:E; inversion R; subst.
      destruct (lookup_at _ _ _ E) as (i & I & _). pose proof (znth_some _ _ _ I).
      apply step_leads; [reflexivity|]. apply st_getg with (i := assoc m (vd_id d)); [exact C|].
      rewrite (proj1 G _ _ _ I). rewrite znth_app1 by (rewrite zlen_map; lia). rewrite znth_map, I. reflexivity.
  Qed.

  Lemma setd_run d v r st r' st' a L rest fr frs : write d v r st = Done (r', st') -> code_at a [setd m d] ->
    frame_ok r L rest fr -> glob_ok st -> exists L',
    leads (conf st a (v :: fstk r L rest) (fr :: frs)) (conf st' (a + 5) (fstk r' L' rest) (fr :: frs)) /\
    frame_ok r' L' rest fr /\ zlen L' = zlen L /\ glob_ok st' /\
    zlen (v_locals r') = zlen (v_locals r) /\ zlen (v_args r') = zlen (v_args r).
  Proof.
    intros R C F G. apply code_at_ins in C. cbn [setd linked_ins] in C. unfold write in R.
    destruct (vd_const d); [discriminate|].
    destruct (vd_kind d) eqn:K.
    - destruct (lookup (v_locals r) (vd_id d)) as [x|] eqn:E; inversion R; subst.
      destruct (lookup_at _ _ _ E) as (i & I & U). pose proof (znth_some _ _ _ I) as B.
      destruct (fo_locals _ _ _ _ F _ _ _ I) as [A _]. pose proof (fo_size _ _ _ _ F) as Sz.
      rewrite U. exists (zupd L (assoc m (vd_id d)) v). cbn [v_locals v_args]. rewrite !zlen_zupd.
      split; [|split; [split|split; [reflexivity|split; [exact G|split; reflexivity]]]]; cbn [v_args v_locals]; rewrite ?zlen_zupd.
      + destruct (Z_le_gt_dec (zlen (fstk r L rest)) i32_max) as [S|S]; [|apply huge_leads; rewrite zlen_cons; lia].
        apply step_leads; [reflexivity|]. unfold fstk in *. cbn [v_args].
        replace (map snd (v_args r) ++ zupd L (assoc m (vd_id d)) v)
          with (zupd (map snd (v_args r) ++ L) (zlen (map snd (v_args r)) + assoc m (vd_id d)) v).
        2: { rewrite zupd_app2 by lia. do 2 f_equal. lia. }
        eapply st_setv; [exact C|exact S| |].
        * rewrite (fo_sp _ _ _ _ F), zlen_map. lia.
        * rewrite zlen_app. pose proof (zlen_nonneg (map snd (v_args r))). lia.
      + apply F.
      + apply F.
      + exact Sz.
      + intros j id o J. destruct (Z.eq_dec i j) as [->|N].
        * rewrite znth_zupd_same in J by lia. inversion J; subst. split; [exact A|].
          intros y Y. inversion Y; subst. rewrite A. apply znth_zupd_same. lia.
        * rewrite znth_zupd_other in J by lia. destruct (fo_locals _ _ _ _ F _ _ _ J) as [A' V]. split; [exact A'|].
          intros y Y. rewrite znth_zupd_other by lia. auto.
    - destruct (lookup (v_args r) (vd_id d)) as [x|] eqn:E; inversion R; subst.
      destruct (lookup_at _ _ _ E) as (i & I & U). pose proof (znth_some _ _ _ I) as B.
      pose proof (fo_args _ _ _ _ F _ _ _ I) as A.
      rewrite U. exists L. cbn [v_locals v_args]. rewrite !zlen_zupd.
      split; [|split; [split|split; [reflexivity|split; [exact G|split; reflexivity]]]]; cbn [v_args v_locals]; rewrite ?zlen_zupd.
      + destruct (Z_le_gt_dec (zlen (fstk r L rest)) i32_max) as [S|S]; [|apply huge_leads; rewrite zlen_cons; lia].
        apply step_leads; [reflexivity|]. unfold fstk in *. cbn [v_args].
        rewrite map_zupd. cbn [snd]. rewrite <- zupd_app1 by (rewrite zlen_map; lia).
        eapply st_setv; [exact C|exact S| |].
        * rewrite (fo_sp _ _ _ _ F). lia.
        * rewrite zlen_app, zlen_map. pose proof (zlen_nonneg L). lia.
      + apply F.
      + intros j id o J. destruct (Z.eq_dec i j) as [->|N].
        * rewrite znth_zupd_same in J by lia. inversion J; subst. exact A.
        * rewrite znth_zupd_other in J by lia. eapply F; exact J.
      + apply F.
      + apply F.
    - destruct (lookup (s_glob st) (vd_id d)) as [x|] eqn:E; inversion R; subst.
      destruct (lookup_at _ _ _ E) as (i & I & U). pose proof (znth_some _ _ _ I) as B.
      exists L. split; [|split; [exact F|split; [reflexivity|split; [|split; reflexivity]]]].
      + apply step_leads; [reflexivity|]. unfold conf, with_glob. cbn [s_heap s_glob s_world s_new].
        rewrite U, map_zupd, (proj1 G _ _ _ I) in *. cbn [snd].
        rewrite <- zupd_app1 by (rewrite zlen_map; lia).
        apply st_setg with (x := x); [exact C|]. rewrite znth_app1 by (rewrite zlen_map; lia). rewrite znth_map, I. reflexivity.
      + split.
        * intros j id y J. cbn [with_glob s_glob] in J. rewrite U in J.
          destruct (Z.eq_dec i j) as [->|N].
          -- rewrite znth_zupd_same in J by lia. inversion J; subst. eapply G; exact I.
          -- rewrite znth_zupd_other in J by lia. eapply G; exact J.
        * cbn [with_glob s_glob]. rewrite U, map_zupd. cbn [fst]. rewrite <- (proj2 G). apply znth_ext.
          -- apply zlen_zupd.
          -- intros j B2. rewrite zlen_zupd in B2. destruct (Z.eq_dec i j) as [->|N].
             ++ rewrite znth_zupd_same by lia. rewrite znth_map, I. reflexivity.
             ++ rewrite znth_zupd_other by lia. reflexivity.
  Qed.

  (** ** What the code must satisfy *)
  Definition eok1 (x : rexpr) : Prop :=
    match x with
    | RFloat f _ => f_of_bits (to_u32 (to_i32 (f_to_bits f))) = f
    | RIdent (DF f) _ => if fd_sys f then 0 <= sx (fd_name f) else fa f = faddr (fd_id f) /\ 0 <= fa f
    | _ => True
    end.
  Definition eok (e : rexpr) : Prop := Forall eok1 (inside e).
  Definition sok (x : rstmt) : Prop := Forall eok (exprs_stmt x).
  Definition fok (f : fdecl) (args : list vdecl) (body : list rstmt) : Prop :=
    is_init f = false /\
    exists k x, code_at (faddr (fd_id f)) (cfunc m sizes sx ng f args body (faddr (fd_id f)) k) /\
      strs_at k (flat_map sstrs body) /\
      function_find_pc prog (faddr (fd_id f)) = Some x /\ num_args x = zlen args /\
      (forall i d, znth args i = Some d -> assoc m (vd_id d) = i - zlen args) /\
      bplaced m (fsize sizes f) body 0 /\ 0 <= fsize sizes f /\ Forall sok body.
  Hypothesis Hfun : forall f args body, In (f, args, body) (functs items) -> fok f args body.

  Definition E (n : nat) : Prop := forall r e st base k tmps L rest fr frs,
    frame_ok r L rest fr -> glob_ok st -> code_at base (cexpr m sx e k) -> strs_at k (estrs e) -> eok e ->
    match run_expr n r e st with
    | Done (v, st') => glob_ok st' /\
        leads (conf st base (tmps ++ fstk r L rest) (fr :: frs))
              (conf st' (base + clen (cexpr m sx e k)) (v :: tmps ++ fstk r L rest) (fr :: frs))
    | Error x st' => crash (conf st base (tmps ++ fstk r L rest) (fr :: frs)) x st'
    | _ => True
    end.
  Definition Es (n : nat) : Prop := forall r es st base k tmps L rest fr frs,
    frame_ok r L rest fr -> glob_ok st -> code_at base (cexprs m sx es k) -> strs_at k (flat_map estrs es) -> Forall eok es ->
    match run_exprs n r es st with
    | Done (vs, st') => glob_ok st' /\ zlen vs = zlen es /\
        leads (conf st base (tmps ++ fstk r L rest) (fr :: frs))
              (conf st' (base + clen (cexprs m sx es k)) (rev vs ++ tmps ++ fstk r L rest) (fr :: frs))
    | Error x st' => crash (conf st base (tmps ++ fstk r L rest) (fr :: frs)) x st'
    | _ => True
    end.
  Definition Fn (n : nat) : Prop := forall f args body vs st rest fr frs,
    In (f, args, body) (functs items) -> glob_ok st -> fr_sp fr = zlen rest + zlen vs ->
    match run_call n (f, args, body) vs st with
    | Done (v, st') => glob_ok st' /\
        leads (conf st (faddr (fd_id f)) (rev vs ++ rest) (fr :: frs)) (conf_ret st' fr rest frs v)
    | Error x st' => crash (conf st (faddr (fd_id f)) (rev vs ++ rest) (fr :: frs)) x st'
    | _ => True
    end.
  (** a statement at address [base] ending at [stop]; [c] locals are in scope afterwards *)
  Definition stmt_like (o : outcome (option aval * env * sst)) (c : Z) (r : env) (L rest : list aval) (fr : frame) (frs : list frame)
      (start : config) (stop : Z) : Prop :=
    match o with
    | Done (None, r', st') => exists L', frame_ok r' L' rest fr /\ glob_ok st' /\ zlen L' = zlen L /\
        zlen (v_args r') = zlen (v_args r) /\ zlen (v_locals r') = c /\
        leads start (conf st' stop (fstk r' L' rest) (fr :: frs))
    | Done (Some v, _, st') => glob_ok st' /\ leads start (conf_ret st' fr rest frs v)
    | Error x st' => crash start x st'
    | _ => True
    end.
  Definition Stm (n : nat) : Prop := forall r x st base k L rest fr frs sp size,
    zlen L = size -> sp = zlen (v_args r) + size -> frame_ok r L rest fr -> glob_ok st ->
    code_at base (cstmt m sx sp x base k) -> strs_at k (sstrs x) -> sok x ->
    placed m size x (zlen (v_locals r)) ->
    stmt_like (run_stmt n r x st) (next_slot x (zlen (v_locals r))) r L rest fr frs
      (conf st base (fstk r L rest) (fr :: frs))
      (base + clen (cstmt m sx sp x base k)).
  Definition Stms (n : nat) : Prop := forall r b st base k L rest fr frs sp size,
    zlen L = size -> sp = zlen (v_args r) + size -> frame_ok r L rest fr -> glob_ok st ->
    code_at base (cblock m sx sp b base k) -> strs_at k (flat_map sstrs b) -> Forall sok b ->
    bplaced m size b (zlen (v_locals r)) ->
    exists c, zlen (v_locals r) <= c /\
    stmt_like (run_stmts n r b st) c r L rest fr frs
      (conf st base (fstk r L rest) (fr :: frs))
      (base + clen (cblock m sx sp b base k)).
  Definition Blk (n : nat) : Prop := forall r o st base k L rest fr frs sp size,
    zlen L = size -> sp = zlen (v_args r) + size -> frame_ok r L rest fr -> glob_ok st ->
    code_at base (coblock m sx sp o base k) -> strs_at k (ostrs o) ->
    match o with Some b => Forall sok b | None => True end ->
    oplaced m size o (zlen (v_locals r)) ->
    stmt_like (run_block n r o st) (zlen (v_locals r)) r L rest fr frs
      (conf st base (fstk r L rest) (fr :: frs))
      (base + clen (coblock m sx sp o base k)).
  (** loops, entered at the condition *)
  Definition Whl (n : nat) : Prop := forall r l c b st base k L rest fr frs sp size,
    zlen L = size -> sp = zlen (v_args r) + size -> frame_ok r L rest fr -> glob_ok st ->
    code_at base (cstmt m sx sp (RWhile l c b) base k) -> strs_at k (sstrs (RWhile l c b)) ->
    sok (RWhile l c b) -> oplaced m size b (zlen (v_locals r)) ->
    stmt_like (run_stmt n r (RWhile l c b) st) (zlen (v_locals r)) r L rest fr frs
      (conf st (base + 5 + clen (coblock m sx sp b (base + 5) k)) (fstk r L rest) (fr :: frs))
      (base + clen (cstmt m sx sp (RWhile l c b) base k)).
  Definition For_code (d : vdecl) (limit : rexpr) (body : list rstmt) (space L0 k : Z) : list sins :=
    (cblock m sx space body L0 k ++ [getd m d; SI (I1 INS_NEW_INT 1); SI (I0 INS_ADD); setd m d]) ++
    getd m d :: cexpr m sx limit (k + zlen (flat_map sstrs body)) ++ [SI (I0 INS_LT); SI (I1 INS_TJMP L0)].
  Definition For (n : nat) : Prop := forall r d limit body st L0 k L rest fr frs sp size,
    zlen L = size -> sp = zlen (v_args r) + size -> frame_ok r L rest fr -> glob_ok st ->
    code_at L0 (For_code d limit body sp L0 k) ->
    strs_at k (flat_map sstrs body ++ estrs limit) -> Forall sok body -> eok limit ->
    bplaced m size body (zlen (v_locals r)) ->
    stmt_like (run_for n r d limit body st) (zlen (v_locals r)) r L rest fr frs
      (conf st (L0 + clen (cblock m sx sp body L0 k ++ [getd m d; SI (I1 INS_NEW_INT 1); SI (I0 INS_ADD); setd m d])) (fstk r L rest) (fr :: frs))
      (L0 + clen (For_code d limit body sp L0 k)).

  (** ** Addresses *)
  Lemma sw_getd d : swidth (getd m d) = 5. Proof. unfold getd. destruct (vd_kind d); reflexivity. Qed.
  Lemma sw_setd d : swidth (setd m d) = 5. Proof. unfold setd. destruct (vd_kind d); reflexivity. Qed.
  Lemma sw_bin o : swidth (SI (I0 (ins_of_bin o))) = 1. Proof. destruct o; reflexivity. Qed.
  Lemma sw_un o : swidth (SI (I0 (ins_of_un o))) = 1. Proof. destruct o; reflexivity. Qed.

  Ltac widths := cbn [fr_ret];
    rewrite ?clen_app, ?clen_cons, ?clen_nil, ?clen_app, ?clen_cons, ?clen_nil, ?clen_app, ?clen_cons, ?clen_nil, ?sw_getd, ?sw_setd, ?sw_bin, ?sw_un;
    repeat match goal with
    | |- context [swidth (SI (I0 ?i))] => change (swidth (SI (I0 i))) with 1
    | |- context [swidth (SI (I1 ?i ?o))] => change (swidth (SI (I1 i o))) with 5
    | |- context [swidth (SI (I2 ?i ?o ?p))] => change (swidth (SI (I2 i o p))) with 9
    | |- context [swidth (SCall ?i ?o)] => change (swidth (SCall i o)) with 9
    | |- context [swidth (SFn ?i)] => change (swidth (SFn i)) with 5
    end; try lia.
  Lemma code_at_eq a b l : code_at a l -> a = b -> code_at b l.
  Proof. intros H <-. exact H. Qed.
  Lemma strs_at_eq a b l : strs_at a l -> a = b -> strs_at b l.
  Proof. intros H <-. exact H. Qed.
  (** one instruction, then go on *)
  Lemma one c c' c'' : c_fin c = false -> cstep prog c c' -> leads c' c'' -> leads c c''.
  Proof. intros F S L. eapply leads_trans; [eapply step_leads; eassumption|exact L]. Qed.

  Lemma Es_S n : E n -> Es n -> Es (S n).
  Proof.
    intros He Hs r es st base k tmps L rest fr frs F G C X O. rewrite run_exprs_S.
    destruct es as [|e es]; [split; [exact G|]; split; [reflexivity|]; apply (leads_pc _ _ base); [apply leads_refl|change (cexprs m sx [] k) with (@nil sins); rewrite clen_nil; lia]|].
    change (cexprs m sx (e :: es) k) with (cexpr m sx e k ++ cexprs m sx es (k + zlen (estrs e))) in *.
    cbn [flat_map] in X. apply code_at_app in C. destruct C as [C1 C2]. apply strs_at_app in X. destruct X as [X1 X2].
    inversion O as [|? ? O1 O2]; subst.
    pose proof (He r e st base k tmps L rest fr frs F G C1 X1 O1) as H1.
    destruct (run_expr n r e st) as [[v st1]|x st1| |]; cbn [obind]; [|exact H1|exact I|exact I].
    destruct H1 as [G1 H1].
    pose proof (Hs r es st1 _ _ (v :: tmps) L rest fr frs F G1 C2 X2 O2) as H2.
    destruct (run_exprs n r es st1) as [[vs st2]|x st2| |]; cbn [obind]; [|exact (leads_crash _ _ _ _ H1 H2)|exact I|exact I].
    destruct H2 as (G2 & N2 & H2). split; [exact G2|]. split; [rewrite !zlen_cons; lia|].
    eapply leads_trans; [exact H1|]. cbn [rev]. rewrite <- app_assoc. eapply leads_pc; [exact H2|]. widths.
  Qed.

  (** ** Expressions *)
  Lemma bin_run o x y st a stk frs : code_at a [SI (I0 (ins_of_bin o))] ->
    match apply2 o x y st with
    | Done (v, st') => st' = st /\ leads (conf st a (y :: x :: stk) frs) (conf st (a + 1) (v :: stk) frs)
    | Error e st' => crash (conf st a (y :: x :: stk) frs) e st'
    | _ => True
    end.
  Proof.
    intros C. apply code_at_ins in C. unfold apply2, look.
    destruct (abs_view (s_heap st) y) as [wy| |] eqn:Y; [cbn [obind]|exact I|exact I].
    destruct (abs_view (s_heap st) x) as [wx| |] eqn:X; [cbn [obind]|exact I|exact I].
    pose proof (st_bin prog (s_heap st) (map snd (s_glob st) ++ tail) (s_world st) (s_new st) post a stk frs o x y wx wy C X Y) as S.
    unfold answer. destruct (binary o (plain wx) (plain wy)) as [[c|e]| |]; [| |exact I|exact I].
    - split; [reflexivity|]. apply step_leads; [reflexivity|exact S].
    - eapply step_crash; [reflexivity|exact S].
  Qed.
  Lemma un_run o x st a stk frs : code_at a [SI (I0 (ins_of_un o))] ->
    match apply1 o x st with
    | Done (v, st') => st' = st /\ leads (conf st a (x :: stk) frs) (conf st (a + 1) (v :: stk) frs)
    | Error e st' => crash (conf st a (x :: stk) frs) e st'
    | _ => True
    end.
  Proof.
    intros C. apply code_at_ins in C. unfold apply1, look.
    destruct (abs_view (s_heap st) x) as [wx| |] eqn:X; [cbn [obind]|exact I|exact I].
    pose proof (st_un prog (s_heap st) (map snd (s_glob st) ++ tail) (s_world st) (s_new st) post a stk frs o x wx C X) as S.
    unfold answer. destruct (unary o (plain wx)) as [[c|e]| |]; [| |exact I|exact I].
    - split; [reflexivity|]. apply step_leads; [reflexivity|exact S].
    - eapply step_crash; [reflexivity|exact S].
  Qed.
  Lemma sys_run x i vs st a stk rest frs :
    (x = I2 INS_SCALL (zlen vs) i /\ stk = rev vs ++ rest) \/ (x = I1 INS_ICALL (zlen vs) /\ stk = AS (SSys i) :: rev vs ++ rest) ->
    glob_ok st -> code_at a [SI x] ->
    match vm_sys prog i vs st with
    | Done (v, st') => glob_ok st' /\ leads (conf st a stk frs) (conf st' (a + swidth (SI x)) (v :: rest) frs)
    | Error e st' => crash (conf st a stk frs) e st'
    | _ => True
    end.
  Proof.
    intros Hx G C. apply code_at_ins in C. cbn [linked_ins] in C.
    pose proof (st_sysc prog x i vs st (map snd (s_glob st) ++ tail) post a rest frs stk Hx C) as S.
    destruct (vm_sys prog i vs st) as [[v st']|e st'| |]; [| |exact I|exact I].
    - destruct S as [E1 S]. split; [unfold glob_ok; rewrite E1; exact G|].
      apply step_leads; [reflexivity|]. unfold conf at 2. rewrite E1. exact S.
    - destruct S as [E1 [stk' S]]. eapply step_crash; [reflexivity|]. unfold conf_err. rewrite E1. exact S.
  Qed.

  Lemma by_id_in id f args body : by_id items id = Some (f, args, body) -> In (f, args, body) (functs items) /\ fd_id f = id.
  Proof. intros H. apply find_some in H. destruct H as [I E0]. split; [exact I|]. now apply Nat.eqb_eq in E0. Qed.
  Lemma by_addr_in a f args body : by_addr items faddr a = Some (f, args, body) -> In (f, args, body) (functs items) /\ faddr (fd_id f) = a.
  Proof. intros H. apply find_some in H. destruct H as [I E0]. split; [exact I|]. cbn in E0. lia. Qed.

  Lemma E_S n : E n -> Es n -> Fn n -> E (S n).
  Proof.
    intros He Hs Hf r e st base k tmps L rest fr frs F G C X O. rewrite run_expr_S.
    destruct e as [id v l|f l|x l|l|[d|f] l|d l x lx|l es|l a i|l f es|o l a b|o l a]; cbn [cexpr estrs] in C, X |- *.
    - split; [exact G|]. apply code_at_ins in C. eapply leads_pc; [apply step_leads; [reflexivity|]; apply st_int; exact C|widths].
    - split; [exact G|]. apply code_at_ins in C. inversion O as [|? ? O1 _]; subst. cbn [eok1] in O1.
      pose proof (st_flt prog (s_heap st) (map snd (s_glob st) ++ tail) (s_world st) (s_new st) post base (tmps ++ fstk r L rest) (fr :: frs) _ C) as S.
      rewrite O1 in S. eapply leads_pc; [apply step_leads; [reflexivity|exact S]|widths].
    - split; [exact G|]. apply code_at_ins in C. eapply leads_pc; [apply step_leads; [reflexivity|]; apply st_str with (i := k); [exact C|]|widths].
      apply strs_at_one; exact X.
    - split; [exact G|]. apply code_at_ins in C. eapply leads_pc; [apply step_leads; [reflexivity|]; apply st_none; exact C|widths].
    - destruct (read d r st) as [v| | |] eqn:R; cbn [obind]; try exact I.
      + split; [exact G|]. eapply leads_pc; [eapply getd_run; eassumption|widths].
      + unfold read in R. destruct (vd_const d); [discriminate|]. destruct (match vd_kind d with KLocal => _ | _ => _ end); discriminate.
    - split; [exact G|]. apply code_at_ins in C. inversion O as [|? ? O1 _]; subst. cbn [eok1] in O1.
      destruct (fd_sys f); cbn [linked_ins] in C.
      + eapply leads_pc; [apply step_leads; [reflexivity|]; apply st_sys; [exact C|exact O1]|widths].
      + destruct O1 as [O1 O2]. rewrite <- O1. eapply leads_pc; [apply step_leads; [reflexivity|]; apply st_fun; [exact C|exact O2]|widths].
    - apply code_at_cons in C. destruct C as [C1 C2].
      destruct (read d r st) as [v| | |] eqn:R; cbn [obind]; try exact I.
      2: { unfold read in R. destruct (vd_const d); [discriminate|]. destruct (match vd_kind d with KLocal => _ | _ => _ end); discriminate. }
      pose proof (getd_run _ _ _ _ _ tmps L rest fr frs R C1 F G) as H1. rewrite sw_getd in C2.
      apply code_at_ins in C2. apply strs_at_one in X.
      pose proof (st_getm prog (s_heap st) (map snd (s_glob st) ++ tail) (s_world st) (s_new st) post (base + 5) (tmps ++ fstk r L rest) (fr :: frs) k x v st C2 X eq_refl) as S.
      destruct (member v x st) as [[y st1]|e st1| |]; [| |exact I|exact I]; destruct S as [-> S].
      + split; [exact G|]. eapply leads_trans; [exact H1|]. eapply leads_pc; [apply step_leads; [reflexivity|exact S]|widths].
      + eapply leads_crash; [exact H1|]. eapply step_crash; [reflexivity|exact S].
    - apply code_at_app in C. destruct C as [C1 C2]. apply Forall_inv_tail in O as O'. apply Forall_flat in O'.
      pose proof (Hs r es st base k tmps L rest fr frs F G C1 X O') as H1.
      destruct (run_exprs n r es st) as [[vs st1]|x st1| |]; cbn [obind]; [|exact H1|exact I|exact I].
      destruct H1 as (G1 & N1 & H1). destruct es as [|e0 es0] eqn:Ees; [exact I|]. rewrite <- Ees in *.
      unfold new_array. split; [exact G1|]. eapply leads_trans; [exact H1|]. apply code_at_ins in C2.
      eapply leads_pc; [apply step_leads; [reflexivity|]; apply st_aryinit; [rewrite N1; exact C2|]|].
      + intros ->. subst es. rewrite zlen_cons in N1. pose proof (zlen_nonneg es0). change (zlen (@nil aval)) with 0 in N1. lia.
      + fold (cexprs m sx). widths.
    - apply code_at_app in C. destruct C as [C1 C2]. apply code_at_app in C2. destruct C2 as [C2 C3].
      apply strs_at_app in X. destruct X as [X1 X2]. apply Forall_inv_tail in O. apply Forall_app in O. destruct O as [O1 O2].
      pose proof (He r i st base k tmps L rest fr frs F G C1 X1 O2) as H1.
      destruct (run_expr n r i st) as [[iv st1]|x st1| |]; cbn [obind]; [|exact H1|exact I|exact I]. destruct H1 as [G1 H1].
      pose proof (He r a st1 _ _ (iv :: tmps) L rest fr frs F G1 C2 X2 O1) as H2.
      destruct (run_expr n r a st1) as [[av st2]|x st2| |]; cbn [obind]; [|exact (leads_crash _ _ _ _ H1 H2)|exact I|exact I]. destruct H2 as [G2 H2].
      apply code_at_ins in C3. pose proof (leads_trans _ _ _ H1 H2) as H3.
      pose proof (st_deref prog (s_heap st2) (map snd (s_glob st2) ++ tail) (s_world st2) (s_new st2) post _ (tmps ++ fstk r L rest) (fr :: frs) av iv st2 C3 eq_refl) as S.
      destruct (element av iv st2) as [[y st3]|e st3| |]; [| |exact I|exact I]; destruct S as [-> S].
      + split; [exact G2|]. eapply leads_trans; [exact H3|]. eapply leads_pc; [apply step_leads; [reflexivity|exact S]|widths].
      + eapply leads_crash; [exact H3|]. eapply step_crash; [reflexivity|exact S].
    - apply code_at_app in C. destruct C as [C1 C2]. apply strs_at_app in X. destruct X as [X1 X2].
      apply Forall_inv_tail in O. apply Forall_app in O. destruct O as [O1 O2]. apply Forall_flat in O2.
      pose proof (Hs r es st base k tmps L rest fr frs F G C1 X1 O2) as H1. fold (cexprs m sx) in *.
      destruct (run_exprs n r es st) as [[vs st1]|x st1| |]; cbn [obind]; [|exact H1|exact I|exact I].
      destruct H1 as (G1 & N1 & H1).
      assert (Ind : code_at (base + clen (cexprs m sx es k)) (cexpr m sx f (k + zlen (flat_map estrs es)) ++ [SI (I1 INS_ICALL (zlen es))]) ->
        match
          (let* (fv, st2) := run_expr n r f st1 in
                match fv with
                | AS (SSys i) => vm_sys prog i vs st2
                | AS (SFun a) =>
                    match by_addr items faddr a with
                    | Some x => if zlen (snd (fst x)) =? zlen vs then run_call n x vs st2
                                else Error e_bad_num_args st2
                    | None => Undefined
                    end
                | ANone => Undefined
                | _ => let* _ := look st2 fv in Error e_bad_type_operation st2
                end)
        with
        | Done (v, st') => glob_ok st' /\
           leads (conf st base (tmps ++ fstk r L rest) (fr :: frs))
                 (conf st' (base + clen (cexprs m sx es k ++ cexpr m sx f (k + zlen (flat_map estrs es)) ++ [SI (I1 INS_ICALL (zlen es))])) (v :: tmps ++ fstk r L rest) (fr :: frs))
        | Error x st' => crash (conf st base (tmps ++ fstk r L rest) (fr :: frs)) x st'
        | _ => True
        end).
      { clear C2. intros C2. apply code_at_app in C2. destruct C2 as [C2 C3].
        pose proof (He r f st1 _ _ (rev vs ++ tmps) L rest fr frs F G1 C2 X2 O1) as H2. rewrite <- app_assoc in H2.
        destruct (run_expr n r f st1) as [[fv st2]|x st2| |]; cbn [obind]; [|exact (leads_crash _ _ _ _ H1 H2)|exact I|exact I]. destruct H2 as [G2 H2].
        pose proof (leads_trans _ _ _ H1 H2) as H3. clear H1 H2. rewrite <- N1 in C3.
        set (pc3 := base + clen (cexprs m sx es k) + clen (cexpr m sx f (k + zlen (flat_map estrs es)))) in *.
        assert (No : forall w, abs_view (s_heap st2) fv = Ok w -> match w with WNone => False | WS (SFun _) => False | WS (SSys _) => False | _ => True end ->
          crash (conf st base (tmps ++ fstk r L rest) (fr :: frs)) e_bad_type_operation st2).
        { intros w V N. eapply leads_crash; [exact H3|]. eapply step_crash; [reflexivity|]. apply code_at_ins in C3.
          eapply st_icall_no; eassumption. }
        destruct fv as [|sc|loc]; [exact I| |].
        - destruct sc as [z|z|z|a|i]; try (cbn [look abs_view obind]; eapply No; [reflexivity|exact I]).
          + destruct (by_addr items faddr a) as [[[g args] body]|] eqn:BA; [|exact I].
            destruct (by_addr_in _ _ _ _ BA) as [In1 Ad]. destruct (Hfun _ _ _ In1) as (_ & k' & x & _ & _ & FP & NA & _).
            rewrite Ad in FP. cbn [fst snd]. apply code_at_ins in C3.
            destruct (zlen args =? zlen vs) eqn:Ar.
            * pose proof (Hf g args body vs st2 (tmps ++ fstk r L rest) (Frame (zlen (rev vs ++ tmps ++ fstk r L rest)) (pc3 + 5) a false) (fr :: frs) In1 G2) as H4.
              cbn [fr_sp] in H4. rewrite Ad in H4.
              assert (S : leads (conf st base (tmps ++ fstk r L rest) (fr :: frs))
                 (conf st2 a (rev vs ++ tmps ++ fstk r L rest) (Frame (zlen (rev vs ++ tmps ++ fstk r L rest)) (pc3 + 5) a false :: fr :: frs))).
              { eapply leads_trans; [exact H3|]. apply step_leads; [reflexivity|]. eapply st_icall; [exact C3|exact FP|lia]. }
              destruct (run_call n (g, args, body) vs st2) as [[v st3]|e st3| |]; [| |exact I|exact I].
              -- destruct H4 as [G4 H4]; [rewrite zlen_app, zlen_rev; lia|]. split; [exact G4|].
                 eapply leads_trans; [exact S|]. eapply leads_pc; [exact H4|]. unfold pc3. widths.
              -- eapply leads_crash; [exact S|]. apply H4. rewrite zlen_app, zlen_rev; lia.
            * eapply leads_crash; [exact H3|]. eapply step_crash; [reflexivity|]. eapply st_icall_bad; [exact C3|exact FP|lia].
          + assert (Hx : (I1 INS_ICALL (zlen vs) = I2 INS_SCALL (zlen vs) i /\ AS (SSys i) :: rev vs ++ tmps ++ fstk r L rest = rev vs ++ tmps ++ fstk r L rest) \/
              (I1 INS_ICALL (zlen vs) = I1 INS_ICALL (zlen vs) /\ AS (SSys i) :: rev vs ++ tmps ++ fstk r L rest = AS (SSys i) :: rev vs ++ tmps ++ fstk r L rest)) by (right; auto).
            pose proof (sys_run _ i vs st2 pc3 _ (tmps ++ fstk r L rest) (fr :: frs) Hx G2 C3) as S.
            destruct (vm_sys prog i vs st2) as [[v st3]|e st3| |]; [| |exact I|exact I].
            * destruct S as [G4 S]. split; [exact G4|]. eapply leads_trans; [exact H3|]. eapply leads_pc; [exact S|].
              unfold pc3. widths.
            * eapply leads_crash; [exact H3|exact S].
        - unfold look. destruct (abs_view (s_heap st2) (AArr loc)) as [w| |] eqn:V; cbn [obind]; [|exact I|exact I].
          eapply No; [reflexivity|]. cbn in V. destruct (znth (s_heap st2) loc); inversion V; subst. exact I. }
      destruct f as [| | | |[d|fd] lf| | | | | |]; try (exact (Ind C2)). clear Ind.
      inversion O1 as [|? ? O3 _]; subst. cbn [eok1] in O3. destruct (fd_sys fd).
      + rewrite <- N1 in C2.
        assert (Hx : (I2 INS_SCALL (zlen vs) (sx (fd_name fd)) = I2 INS_SCALL (zlen vs) (sx (fd_name fd)) /\ rev vs ++ tmps ++ fstk r L rest = rev vs ++ tmps ++ fstk r L rest) \/
              (I2 INS_SCALL (zlen vs) (sx (fd_name fd)) = I1 INS_ICALL (zlen vs) /\ rev vs ++ tmps ++ fstk r L rest = AS (SSys (sx (fd_name fd))) :: rev vs ++ tmps ++ fstk r L rest)) by (left; auto).
        pose proof (sys_run _ _ vs st1 _ _ (tmps ++ fstk r L rest) (fr :: frs) Hx G1 C2) as S.
        destruct (vm_sys prog (sx (fd_name fd)) vs st1) as [[v st3]|e st3| |]; [| |exact I|exact I].
        * destruct S as [G4 S]. split; [exact G4|]. eapply leads_trans; [exact H1|]. eapply leads_pc; [exact S|]. widths.
        * eapply leads_crash; [exact H1|exact S].
      + destruct O3 as [O3 O4]. destruct (by_id items (fd_id fd)) as [[[g args] body]|] eqn:BI; [|exact I].
        destruct (by_id_in _ _ _ _ BI) as [In1 Ad]. apply code_at_ins in C2. cbn [linked_ins] in C2.
        set (pc3 := base + clen (cexprs m sx es k)) in *.
        pose proof (Hf g args body vs st1 (tmps ++ fstk r L rest) (Frame (zlen (rev vs ++ tmps ++ fstk r L rest)) (pc3 + 9) (fa fd) false) (fr :: frs) In1 G1) as H4.
        cbn [fr_sp] in H4. rewrite Ad, <- O3 in H4.
        assert (S : leads (conf st base (tmps ++ fstk r L rest) (fr :: frs))
                 (conf st1 (fa fd) (rev vs ++ tmps ++ fstk r L rest) (Frame (zlen (rev vs ++ tmps ++ fstk r L rest)) (pc3 + 9) (fa fd) false :: fr :: frs))).
        { eapply leads_trans; [exact H1|]. apply step_leads; [reflexivity|]. eapply st_call; exact C2. }
        destruct (run_call n (g, args, body) vs st1) as [[v st3]|e st3| |]; [| |exact I|exact I].
        * destruct H4 as [G4 H4]; [rewrite zlen_app, zlen_rev; lia|]. split; [exact G4|].
          eapply leads_trans; [exact S|]. eapply leads_pc; [exact H4|]. unfold pc3. widths.
        * eapply leads_crash; [exact S|]. apply H4. rewrite zlen_app, zlen_rev; lia.
    - apply code_at_app in C. destruct C as [C1 C2]. apply code_at_app in C2. destruct C2 as [C2 C3].
      apply strs_at_app in X. destruct X as [X1 X2]. apply Forall_inv_tail in O. apply Forall_app in O. destruct O as [O1 O2].
      pose proof (He r a st base k tmps L rest fr frs F G C1 X1 O1) as H1.
      destruct (run_expr n r a st) as [[av st1]|x st1| |]; cbn [obind]; [|exact H1|exact I|exact I]. destruct H1 as [G1 H1].
      pose proof (He r b st1 _ _ (av :: tmps) L rest fr frs F G1 C2 X2 O2) as H2.
      destruct (run_expr n r b st1) as [[bv st2]|x st2| |]; cbn [obind]; [|exact (leads_crash _ _ _ _ H1 H2)|exact I|exact I]. destruct H2 as [G2 H2].
      pose proof (leads_trans _ _ _ H1 H2) as H3.
      pose proof (bin_run o av bv st2 _ (tmps ++ fstk r L rest) (fr :: frs) C3) as S.
      destruct (apply2 o av bv st2) as [[y st3]|e st3| |]; [| |exact I|exact I].
      + destruct S as [-> S]. split; [exact G2|]. eapply leads_trans; [exact H3|]. eapply leads_pc; [exact S|widths].
      + eapply leads_crash; [exact H3|exact S].
    - apply code_at_app in C. destruct C as [C1 C2]. apply Forall_inv_tail in O.
      pose proof (He r a st base k tmps L rest fr frs F G C1 X O) as H1.
      destruct (run_expr n r a st) as [[av st1]|x st1| |]; cbn [obind]; [|exact H1|exact I|exact I]. destruct H1 as [G1 H1].
      pose proof (un_run o av st1 _ (tmps ++ fstk r L rest) (fr :: frs) C2) as S.
      destruct (apply1 o av st1) as [[y st3]|e st3| |]; [| |exact I|exact I].
      + destruct S as [-> S]. split; [exact G1|]. eapply leads_trans; [exact H1|]. eapply leads_pc; [exact S|widths].
      + eapply leads_crash; [exact H1|exact S].
  Qed.

  (** ** Functions *)
  Lemma ret_run v r L rest fr frs st a : code_at a [SI (I1 INS_RET (zlen (v_args r) + zlen L))] ->
    leads (conf st a (v :: fstk r L rest) (fr :: frs)) (conf_ret st fr rest frs v).
  Proof.
    intros C. apply code_at_ins in C. apply step_leads; [reflexivity|]. apply st_ret with (k := zlen (v_args r) + zlen L); [exact C|].
    rewrite zlen_rev, zlen_app, zlen_map. reflexivity.
  Qed.
  Lemma run_stmts_ends n : forall r b st r' st', run_stmts n r b st = Done (None, r', st') -> ends_in_return b = false.
  Proof.
    induction n as [|n IH]; intros r b st r' st' H; [rewrite run_stmts_O in H; discriminate|].
    rewrite run_stmts_S in H. destruct b as [|x b]; [reflexivity|].
    destruct (run_stmt n r x st) as [[[o r1] st1]| | |] eqn:R; try discriminate H. cbn [obind] in H.
    destruct o; [discriminate|]. apply IH in H. destruct x as [| | | | | | | |l oe]; try exact H. destruct b; [|exact H].
    exfalso. destruct n as [|n]; [rewrite run_stmt_O in R; discriminate|]. rewrite run_stmt_S in R. destruct oe as [e|]; [|discriminate].
    destruct (run_expr n r e st) as [[v st2]| | |]; discriminate.
  Qed.
  Lemma rev_zrepeat {X} (x : X) k : rev (zrepeat x k) = zrepeat x k.
  Proof.
    unfold zrepeat. assert (P : forall n, repeat x n ++ [x] = x :: repeat x n).
    { induction n as [|n IH]; [reflexivity|]. cbn [repeat app]. now rewrite IH. }
    induction (Z.to_nat k) as [|n IH]; [reflexivity|]. cbn [repeat rev]. rewrite IH. apply P.
  Qed.
  Lemma combine_args (args : list vdecl) (vs : list aval) : zlen args = zlen vs ->
    map snd (combine (map vd_id args) vs) = vs /\ zlen (combine (map vd_id args) vs) = zlen vs /\
    forall i id v, znth (combine (map vd_id args) vs) i = Some (id, v) -> exists d, znth args i = Some d /\ vd_id d = id.
  Proof.
    revert vs. induction args as [|d args IH]; intros [|v vs] E0.
    - repeat split; intros i id v H; discriminate H.
    - rewrite zlen_cons in E0. pose proof (zlen_nonneg vs). change (zlen (@nil vdecl)) with 0 in E0. lia.
    - rewrite zlen_cons in E0. pose proof (zlen_nonneg args). change (zlen (@nil aval)) with 0 in E0. lia.
    - rewrite !zlen_cons in E0. destruct (IH vs) as (A & B & D); [lia|]. cbn [map combine snd].
      repeat split; [now rewrite A|rewrite !zlen_cons; lia|].
      intros i id v0 H. cbn [znth] in *. destruct (i =? 0); [inversion H; subst; eauto|]. eauto.
  Qed.

  Lemma Fn_S n : Stms n -> Fn (S n).
  Proof.
    intros Hs f args body vs st rest fr frs In1 G Sp. rewrite run_call_S.
    destruct (Hfun _ _ _ In1) as (NI & k & x & C & X & _ & _ & Ar & Pl & Sz & Ok1).
    destruct (zlen args =? zlen vs) eqn:Len; [|exact I].
    destruct (combine_args args vs) as (A1 & A2 & A3); [lia|].
    set (r := Env (combine (map vd_id args) vs) []) in *. set (L := zrepeat ANone (fsize sizes f)).
    assert (ZL : zlen L = fsize sizes f) by (unfold L; rewrite zlen_zrepeat; lia).
    assert (ZA : zlen (v_args r) = zlen args) by (cbn [r v_args]; lia).
    assert (F : frame_ok r L rest fr).
    { split; cbn [r v_args v_locals].
      - lia.
      - intros i id v H. destruct (A3 _ _ _ H) as (d & D1 & <-). rewrite (Ar _ _ D1). lia.
      - change (zlen (@nil (nat * option aval))) with 0. lia.
      - intros i id o H. discriminate H. }
    assert (FS : fstk r L rest = L ++ rev vs ++ rest).
    { unfold fstk, L. cbn [r v_args]. rewrite A1, rev_app_distr, rev_zrepeat, <- app_assoc. reflexivity. }
    unfold cfunc in C. apply code_at_app in C. destruct C as [C1 C2]. apply code_at_app in C2. destruct C2 as [C2 C3].
    set (base := faddr (fd_id f)) in *. set (pl := prologue sizes ng f) in *.
    assert (P : leads (conf st base (rev vs ++ rest) (fr :: frs)) (conf st (base + clen pl) (fstk r L rest) (fr :: frs))).
    { rewrite FS. unfold pl, prologue in *. rewrite NI in *. destruct (0 <? fsize sizes f) eqn:Z0.
      - apply code_at_ins in C1. apply step_leads; [reflexivity|]. change (clen [SI (I1 INS_LOCALS (fsize sizes f))]) with 5.
        apply st_locals; [exact C1|exact Sz].
      - assert (L = []) as ->.
        { unfold L. replace (fsize sizes f) with 0 by lia. reflexivity. }
        rewrite clen_nil, Z.add_0_r. apply leads_refl. }
    assert (Hsp : space sizes f args = zlen (v_args r) + zlen L) by (unfold space; lia). rewrite Hsp in *.
    assert (Pl' : bplaced m (zlen L) body (zlen (v_locals r))) by (rewrite ZL; exact Pl).
    destruct (Hs r body st _ k L rest fr frs _ _ eq_refl eq_refl F G C2 X Ok1 Pl') as (c & _ & H).
    destruct (run_stmts n r body st) as [[[[v|] r1] st1]|e st1| |] eqn:R; cbn [obind stmt_like] in *; [| | |exact I|exact I].
    - destruct H as [G1 H]. split; [exact G1|]. eapply leads_trans; eassumption.
    - destruct H as (L' & F' & G1 & ZL' & ZA' & _ & H). split; [exact G1|].
      unfold epilogue in C3. rewrite (run_stmts_ends _ _ _ _ _ _ R), Hsp in C3. rewrite andb_false_r in C3.
      apply code_at_cons in C3. destruct C3 as [C3 C4].
      eapply leads_trans; [exact P|]. eapply leads_trans; [exact H|].
      apply code_at_ins in C3. eapply one; [reflexivity|apply st_int; exact C3|].
      apply ret_run with (r := r1) (L := L'). rewrite ZA', ZL'. exact C4.
    - eapply leads_crash; eassumption.
  Qed.

  (** ** Statements *)
  Lemma truth_view v st b : truth v st = Done b -> exists w, abs_view (s_heap st) v = Ok w /\ as_bool (plain w) = b.
  Proof. unfold truth, look. destruct (abs_view (s_heap st) v) as [w| |]; cbn [obind]; intros H; inversion H; eauto. Qed.
  Lemma truth_no_error v st : match truth v st with Error _ _ => False | _ => True end.
  Proof. unfold truth, look. destruct (abs_view (s_heap st) v) as [w| |]; cbn [obind]; exact I. Qed.
  Lemma read_no_error d r st : match read d r st with Error _ _ => False | _ => True end.
  Proof. unfold read. destruct (vd_const d); [exact I|]. destruct (match vd_kind d with KLocal => _ | _ => _ end); exact I. Qed.
  Lemma write_no_error d v r st : match write d v r st with Error _ _ => False | _ => True end.
  Proof.
    unfold write. destruct (vd_const d); [exact I|]. destruct (vd_kind d).
    - destruct (lookup (v_locals r) (vd_id d)); exact I.
    - destruct (lookup (v_args r) (vd_id d)); exact I.
    - destruct (lookup (s_glob st) (vd_id d)); exact I.
  Qed.

  Lemma stmt_like_start o c r L rest fr frs s s' stop : leads s s' -> stmt_like o c r L rest fr frs s' stop -> stmt_like o c r L rest fr frs s stop.
  Proof.
    intros H. unfold stmt_like. destruct o as [[[[v|] r'] st']|e st'| |]; try tauto.
    - intros [A B]. split; [exact A|]. eapply leads_trans; eassumption.
    - intros (L' & A & B & D & E0 & K & M). exists L'. repeat (split; [assumption|]). eapply leads_trans; eassumption.
    - intros A. eapply leads_crash; eassumption.
  Qed.
  Lemma stmt_like_stop o c r L rest fr frs s a b : a = b -> stmt_like o c r L rest fr frs s a -> stmt_like o c r L rest fr frs s b.
  Proof. intros <-. trivial. Qed.
  (** after a step that may change variables *)
  Lemma stmt_like_frame o c r1 L1 r L rest fr frs s stop : zlen L1 = zlen L -> zlen (v_args r1) = zlen (v_args r) ->
    stmt_like o c r1 L1 rest fr frs s stop -> stmt_like o c r L rest fr frs s stop.
  Proof.
    intros E1 E2. unfold stmt_like. destruct o as [[[[v|] r'] st']|e st'| |]; try tauto.
    intros (L' & A & B & D & E0 & K & M). exists L'. repeat (split; [try assumption; congruence|]). exact M.
  Qed.

  Lemma Stms_S n : Stm n -> Stms n -> Stms (S n).
  Proof.
    intros H1 H2 r b st base k L rest fr frs sp size ZL0 ZS F G C X O Pl. rewrite run_stmts_S. destruct b as [|x b].
    - exists (zlen (v_locals r)). split; [lia|]. exists L. repeat (split; [assumption||reflexivity|]).
      eapply leads_pc; [apply leads_refl|]. change (cblock m sx sp [] base k) with (@nil sins). rewrite clen_nil. lia.
    - change (cblock m sx sp (x :: b) base k) with
        (cstmt m sx sp x base k ++ cblock m sx sp b (base + clen (cstmt m sx sp x base k)) (k + zlen (sstrs x))) in *.
      apply code_at_app in C. destruct C as [C1 C2]. cbn [flat_map] in X. apply strs_at_app in X. destruct X as [X1 X2].
      inversion O as [|? ? O1 O2]; subst x0 l. destruct Pl as [P1 P2].
      specialize (H1 r x st base k L rest fr frs sp size ZL0 ZS F G C1 X1 O1 P1).
      assert (NS : zlen (v_locals r) <= next_slot x (zlen (v_locals r))).
      { unfold next_slot. destruct x; try lia. destruct (local_slot d); lia. }
      destruct (run_stmt n r x st) as [[[[v|] r1] st1]|e st1| |]; cbn [obind]; cbn [stmt_like] in H1.
      + exists (zlen (v_locals r)). split; [lia|]. exact H1.
      + destruct H1 as (L1 & F1 & G1 & ZL & ZA & ZV & H1). 
        change (pseq (placed m size) b) with (bplaced m size b) in P2. rewrite <- ZV in P2.
        destruct (H2 r1 b st1 _ _ L1 rest fr frs sp size (eq_trans ZL ZL0) (eq_trans ZS (f_equal (fun z => z + size) (eq_sym ZA))) F1 G1 C2 X2 O2 P2) as (c & Lc & H3). exists c. split; [lia|].
        eapply stmt_like_start; [exact H1|]. eapply stmt_like_frame; [exact ZL|exact ZA|].
        eapply stmt_like_stop; [|exact H3].
        rewrite clen_app. lia.
      + exists (zlen (v_locals r)). split; [lia|]. exact H1.
      + exists (zlen (v_locals r)). split; [lia|exact I].
      + exists (zlen (v_locals r)). split; [lia|exact I].
  Qed.

  Lemma leave_frame r r1 L rest fr : frame_ok r1 L rest fr -> zlen (v_locals r) <= zlen (v_locals r1) ->
    frame_ok (leave_block r r1) L rest fr /\ zlen (v_locals (leave_block r r1)) = zlen (v_locals r).
  Proof.
    intros F Le. unfold leave_block.
    assert (Sk : skipn (List.length (v_locals r1) - List.length (v_locals r)) (v_locals r1) = zskipn (zlen (v_locals r1) - zlen (v_locals r)) (v_locals r1)).
    { rewrite zskipn_skipn by lia. f_equal. unfold zlen in *. lia. }
    rewrite Sk. pose proof (zlen_nonneg (v_locals r)).
    assert (ZS : zlen (zskipn (zlen (v_locals r1) - zlen (v_locals r)) (v_locals r1)) = zlen (v_locals r)) by (rewrite zlen_zskipn; lia).
    split; [|exact ZS]. split; cbn [v_args v_locals]; try apply F.
    - rewrite ZS. pose proof (fo_size _ _ _ _ F). lia.
    - intros i id o H1. rewrite ZS. pose proof (znth_some _ _ _ H1) as B. rewrite znth_zskipn in H1 by lia.
      destruct (fo_locals _ _ _ _ F _ _ _ H1) as [A V].
      replace (zlen (v_locals r1) - 1 - (zlen (v_locals r1) - zlen (v_locals r) + i)) with (zlen (v_locals r) - 1 - i) in * by lia.
      split; assumption.
  Qed.
  Lemma Blk_S n : Stms n -> Blk (S n).
  Proof.
    intros Hs r o st base k L rest fr frs sp size ZL0 ZS F G C X O Pl. rewrite run_block_S. destruct o as [b|]; cbn [coblock ostrs oplaced] in *.
    - destruct (Hs r b st base k L rest fr frs sp size ZL0 ZS F G C X O Pl) as (c & Lc & H).
      destruct (run_stmts n r b st) as [[[[v|] r1] st1]|e st1| |]; cbn [obind stmt_like] in *; try assumption.
      destruct H as (L' & F' & G' & ZL & ZA & ZV & H).
      destruct (leave_frame r r1 L' rest fr F') as [F2 Z2]; [lia|].
      exists L'. repeat (split; [assumption|]). exact H.
    - exists L. repeat (split; [assumption||reflexivity|]). eapply leads_pc; [apply leads_refl|]. rewrite clen_nil. lia.
  Qed.

  (** ** Loops *)
  Lemma sok_app a b : Forall eok (a ++ b) -> Forall eok a /\ Forall eok b. Proof. apply Forall_app. Qed.
  Lemma sok_block b : Forall eok (flat_map exprs_stmt b) -> Forall sok b. Proof. apply Forall_flat. Qed.
  Lemma sok_oblock (o : option (list rstmt)) : Forall eok (match o with Some b => flat_map exprs_stmt b | None => [] end) ->
    match o with Some b => Forall sok b | None => True end.
  Proof. destruct o; [apply sok_block|trivial]. Qed.

  Lemma Whl_S n : E n -> Blk n -> Whl n -> Whl (S n).
  Proof.
    intros He Hb Hw r l c b st base k L rest fr frs sp size ZL0 ZS F G C X O Pl. pose proof C as C0. pose proof X as X0. pose proof O as O0.
    cbn [cstmt sstrs] in C, X. change (match b with Some b0 => cseq (cstmt m sx sp) b0 (base + 5) k | None => [] end) with (coblock m sx sp b (base + 5) k) in C.
    change (match b with Some b0 => flat_map sstrs b0 | None => [] end) with (ostrs b) in X.
    apply code_at_cons in C. destruct C as [C1 C2]. change (swidth (SI (I1 INS_JMP (base + 5 + clen (coblock m sx sp b (base + 5) k))))) with 5 in C2.
    apply code_at_app in C2. destruct C2 as [C2 C3]. apply code_at_app in C3. destruct C3 as [C3 C4].
    apply strs_at_app in X. destruct X as [X1 X2]. unfold sok in O. cbn [exprs_stmt] in O. inversion O as [|? ? O1 O2]; subst x l0. apply sok_oblock in O2.
    rewrite run_stmt_S.
    pose proof (He r c st _ _ [] L rest fr frs F G C3 X2 O1) as H1. cbn [app] in H1.
    destruct (run_expr n r c st) as [[v st1]|e st1| |]; cbn [obind]; [|exact H1|exact I|exact I]. destruct H1 as [G1 H1].
    pose proof (truth_no_error v st1) as NE. destruct (truth v st1) as [go|e st2| |] eqn:T; cbn [obind]; [|contradiction|exact I|exact I]. clear NE.
    destruct (truth_view _ _ _ T) as (w & V & B).
    pose proof C4 as C5. apply code_at_ins in C4. cbn [linked_ins] in C4.
    pose proof (st_tjmp prog (s_heap st1) (map snd (s_glob st1) ++ tail) (s_world st1) (s_new st1) post _ (fstk r L rest) (fr :: frs) _ v w C4 V) as S1. rewrite B in S1.
    destruct go.
    - pose proof (step_leads (conf st1 _ _ _) (conf st1 _ _ _) eq_refl S1) as H2. pose proof (leads_trans _ _ _ H1 H2) as H3.
      pose proof (Hb r b st1 (base + 5) k L rest fr frs sp size ZL0 ZS F G1 C2 X1 O2 Pl) as H4.
      eapply stmt_like_start; [exact H3|]. clear H1 H2 H3 S1.
      destruct (run_block n r b st1) as [[[[rv|] r1] st2]|e st2| |]; cbn [obind]; cbn [stmt_like] in H4 |- *; try exact H4.
      destruct H4 as (L1 & F1 & G2 & ZL & ZA & ZV & H4). rewrite <- ZV in Pl.
      pose proof (Hw r1 l c b st2 base k L1 rest fr frs sp size (eq_trans ZL ZL0) (eq_trans ZS (f_equal (fun z => z + size) (eq_sym ZA))) F1 G2 C0 X0 O0 Pl) as H5.
      rewrite ZV in H5. eapply stmt_like_start; [exact H4|]. eapply stmt_like_frame; [exact ZL|exact ZA|exact H5].
    - exists L. repeat (split; [assumption||reflexivity|]). eapply leads_trans; [exact H1|].
      eapply leads_pc; [apply step_leads; [reflexivity|exact S1]|].
      cbn [cstmt]. change (match b with Some b0 => cseq (cstmt m sx sp) b0 (base + 5) k | None => [] end) with (coblock m sx sp b (base + 5) k). widths.
  Qed.

  Lemma For_S n : E n -> Blk n -> For n -> For (S n).
  Proof.
    intros He Hb Hf r d limit body st L0 k L rest fr frs sp size ZL0 ZS F G C X O Ol Pl. pose proof C as C0. pose proof X as X0.
    unfold For_code in C. apply code_at_app in C. destruct C as [C1 C2]. set (L1 := L0 + clen _) in C2 |- *.
    apply code_at_cons in C2. destruct C2 as [C2 C3]. rewrite sw_getd in C3. apply code_at_app in C3. destruct C3 as [C3 C4].
    apply code_at_cons in C4. destruct C4 as [C4 C5]. change (swidth (SI (I0 INS_LT))) with 1 in C5.
    apply code_at_app in C1. destruct C1 as [C1 C6]. apply code_at_cons in C6. destruct C6 as [C6 C7]. rewrite sw_getd in C7.
    apply code_at_cons in C7. destruct C7 as [C7 C8]. change (swidth (SI (I1 INS_NEW_INT 1))) with 5 in C8.
    apply code_at_cons in C8. destruct C8 as [C8 C9]. change (swidth (SI (I0 INS_ADD))) with 1 in C9.
    apply strs_at_app in X. destruct X as [X1 X2].
    rewrite run_for_S.
    pose proof (read_no_error d r st) as NE. destruct (read d r st) as [i| | |] eqn:R; cbn [obind]; [|contradiction|exact I|exact I]. clear NE.
    pose proof (getd_run _ _ _ _ _ [] L rest fr frs R C2 F G) as H1. cbn [app] in H1.
    pose proof (He r limit st _ _ [i] L rest fr frs F G C3 X2 Ol) as H2. cbn [app] in H2.
    destruct (run_expr n r limit st) as [[mv st1]|e st1| |]; cbn [obind]; [|exact (leads_crash _ _ _ _ H1 H2)|exact I|exact I]. destruct H2 as [G1 H2].
    pose proof (leads_trans _ _ _ H1 H2) as H3. clear H1 H2.
    pose proof (bin_run BLt i mv st1 _ (fstk r L rest) (fr :: frs) C4) as H4.
    destruct (apply2 BLt i mv st1) as [[t st2]|e st2| |]; cbn [obind]; [|exact (leads_crash _ _ _ _ H3 H4)|exact I|exact I]. destruct H4 as [-> H4].
    pose proof (leads_trans _ _ _ H3 H4) as H5. clear H3 H4.
    pose proof (truth_no_error t st1) as NE. destruct (truth t st1) as [go|e st2| |] eqn:T; cbn [obind]; [|contradiction|exact I|exact I]. clear NE.
    destruct (truth_view _ _ _ T) as (w & V & B). apply code_at_ins in C5. cbn [linked_ins] in C5.
    pose proof (st_tjmp prog (s_heap st1) (map snd (s_glob st1) ++ tail) (s_world st1) (s_new st1) post _ (fstk r L rest) (fr :: frs) _ t w C5 V) as S1. rewrite B in S1.
    destruct go.
    - pose proof (step_leads (conf st1 _ _ _) (conf st1 _ _ _) eq_refl S1) as H2. pose proof (leads_trans _ _ _ H5 H2) as H3.
      pose proof (Hb r (Some body) st1 L0 k L rest fr frs sp size ZL0 ZS F G1 C1 X1 O Pl) as H4.
      eapply stmt_like_start; [exact H3|]. clear H2 H3 H5 S1. cbn [coblock] in H4.
      destruct (run_block n r (Some body) st1) as [[[[rv|] r1] st2]|e st2| |]; cbn [obind]; cbn [stmt_like] in H4 |- *; try exact H4.
      destruct H4 as (La & Fa & G2 & ZL & ZA & ZV & H4).
      pose proof (read_no_error d r1 st2) as NE. destruct (read d r1 st2) as [i1| | |] eqn:R1; cbn [obind]; [|contradiction|exact I|exact I]. clear NE.
      pose proof (getd_run _ _ _ _ _ [] La rest fr frs R1 C6 Fa G2) as H1. cbn [app] in H1.
      apply code_at_ins in C7. cbn [linked_ins] in C7.
      pose proof (step_leads (conf st2 _ _ _) (conf st2 _ _ _) eq_refl (st_int prog (s_heap st2) (map snd (s_glob st2) ++ tail) (s_world st2) (s_new st2) post _ (i1 :: fstk r1 La rest) (fr :: frs) 1 C7)) as H2.
      pose proof (leads_trans _ _ _ H4 (leads_trans _ _ _ H1 H2)) as H3. clear H4 H1 H2.
      pose proof (bin_run BAdd i1 (AS (SInt 1)) st2 _ (fstk r1 La rest) (fr :: frs) C8) as H4.
      destruct (apply2 BAdd i1 (AS (SInt 1)) st2) as [[i2 st3]|e st3| |]; cbn [obind]; [|exact (leads_crash _ _ _ _ H3 H4)|exact I|exact I]. destruct H4 as [-> H4].
      pose proof (leads_trans _ _ _ H3 H4) as H5. clear H3 H4.
      pose proof (write_no_error d i2 r1 st2) as NE. destruct (write d i2 r1 st2) as [[r2 st3]| | |] eqn:W; cbn [obind]; [|contradiction|exact I|exact I]. clear NE.
      destruct (setd_run _ _ _ _ _ _ _ La rest fr frs W C9 Fa G2) as (Lb & H6 & Fb & ZLb & G3 & ZVb & ZAb).
      pose proof (leads_trans _ _ _ H5 H6) as H7. clear H5 H6.
      assert (Pl2 : bplaced m size body (zlen (v_locals r2))) by (rewrite ZVb, ZV; exact Pl).
      assert (ZAr : zlen (v_args r2) = zlen (v_args r)) by (rewrite ZAb; exact ZA).
      assert (ZLr : zlen Lb = zlen L) by (rewrite ZLb; exact ZL).
      pose proof (Hf r2 d limit body st3 L0 k Lb rest fr frs sp size (eq_trans ZLr ZL0) (eq_trans ZS (f_equal (fun z => z + size) (eq_sym ZAr))) Fb G3 C0 X0 O Ol Pl2) as H8.
      rewrite ZVb, ZV in H8. eapply stmt_like_start; [|eapply stmt_like_frame; [exact ZLr|exact ZAr|exact H8]].
      eapply leads_pc; [exact H7|]. widths.
    - exists L. repeat (split; [assumption||reflexivity|]). eapply leads_trans; [exact H5|].
      eapply leads_pc; [apply step_leads; [reflexivity|exact S1]|]. unfold L1, For_code. widths.
  Qed.

  Lemma Stm_S n : E n -> Blk n -> For n -> Whl (S n) -> Stm (S n).
  Proof.
    intros He Hb Hf Hw r x st base k L rest fr frs sp size ZL0 ZS F G C X O Pl.
    destruct x as [d oe|d l e|d l x lx e|d l i e|l f es|l c t f|l c b|l d lx a b body|l oe].
    - rewrite run_stmt_S. destruct (vd_kind d) eqn:K; [|exact I|exact I]. destruct (vd_const d) eqn:Cn; [exact I|].
      assert (LS : local_slot d = true) by (unfold local_slot; now rewrite K, Cn).
      cbn [cstmt sstrs next_slot] in *. rewrite K, Cn in *. rewrite LS.
      change (if local_slot d then assoc m (vd_id d) = zlen (v_locals r) /\ zlen (v_locals r) < size else True) in Pl. rewrite LS in Pl.
      destruct Pl as [P1 P2]. pose proof (zlen_nonneg (v_locals r)) as NN.
      assert (Fx : forall o L', zlen L' = zlen L -> (forall i, i <> zlen (v_locals r) -> znth L' i = znth L i) ->
        (forall v, o = Some v -> znth L' (zlen (v_locals r)) = Some v) ->
        frame_ok (Env (v_args r) ((vd_id d, o) :: v_locals r)) L' rest fr).
      { intros o L' EL Eo Ev. split; cbn [v_args v_locals]; try apply F.
        - rewrite zlen_cons. lia.
        - intros i id o' H. rewrite zlen_cons. cbn [znth] in H. destruct (i =? 0) eqn:I0.
          + inversion H; subst id o'. replace (zlen (v_locals r) + 1 - 1 - i) with (zlen (v_locals r)) by lia. auto.
          + pose proof (znth_some _ _ _ H). destruct (fo_locals _ _ _ _ F _ _ _ H) as [A V].
            replace (zlen (v_locals r) + 1 - 1 - i) with (zlen (v_locals r) - 1 - (i - 1)) by lia. split; [exact A|].
            intros v Ev'. rewrite Eo by lia. auto. }
      destruct oe as [e|]; cbn [obind].
      + apply code_at_app in C. destruct C as [C1 C2]. unfold sok in O. cbn [exprs_stmt opt_list] in O. inversion O as [|? ? O1 _]; subst x l.
        pose proof (He r e st base k [] L rest fr frs F G C1 X O1) as H1. cbn [app] in H1.
        destruct (run_expr n r e st) as [[v st1]|x st1| |]; cbn [obind]; [|exact H1|exact I|exact I]. destruct H1 as [G1 H1].
        apply code_at_ins in C2. cbn [linked_ins] in C2. rewrite P1 in C2.
        exists (zupd L (zlen (v_locals r)) v). cbn [v_args v_locals]. rewrite zlen_zupd, zlen_cons.
        split; [apply Fx; [apply zlen_zupd|intros i Ni; apply znth_zupd_other; lia|intros y Y; inversion Y; subst y; apply znth_zupd_same; lia]|].
        repeat (split; [assumption||reflexivity|]). eapply leads_trans; [exact H1|].
        destruct (Z_le_gt_dec (zlen (fstk r L rest)) i32_max) as [S|S]; [|apply huge_leads; rewrite zlen_cons; lia].
        apply leads_pc with (a := base + clen (cexpr m sx e k) + 5); [apply step_leads; [reflexivity|]|widths].
        unfold fstk in *. cbn [v_args].
        replace (map snd (v_args r) ++ zupd L (zlen (v_locals r)) v)
          with (zupd (map snd (v_args r) ++ L) (zlen (map snd (v_args r)) + zlen (v_locals r)) v).
        2: { rewrite zupd_app2 by lia. do 2 f_equal. lia. }
        eapply st_setv; [exact C2|exact S| |].
        * rewrite (fo_sp _ _ _ _ F), zlen_map. lia.
        * rewrite zlen_app. pose proof (zlen_nonneg (map snd (v_args r))). lia.
      + exists L. cbn [v_args v_locals]. rewrite zlen_cons.
        split; [apply Fx; [reflexivity|reflexivity|discriminate]|].
        repeat (split; [assumption||reflexivity|]). eapply leads_pc; [apply leads_refl|]. rewrite clen_nil. lia.
    - rewrite run_stmt_S. cbn [cstmt sstrs next_slot] in *. apply code_at_app in C. destruct C as [C1 C2].
      unfold sok in O. cbn [exprs_stmt opt_list] in O. inversion O as [|? ? O1 _]; subst x l0.
      pose proof (He r e st base k [] L rest fr frs F G C1 X O1) as H1. cbn [app] in H1.
      destruct (run_expr n r e st) as [[v st1]|x st1| |]; cbn [obind]; [|exact H1|exact I|exact I]. destruct H1 as [G1 H1].
      pose proof (write_no_error d v r st1) as NE. destruct (write d v r st1) as [[r2 st3]| | |] eqn:W; cbn [obind]; [|contradiction|exact I|exact I]. clear NE.
      destruct (setd_run _ _ _ _ _ _ _ L rest fr frs W C2 F G1) as (Lb & H6 & Fb & ZLb & G3 & ZVb & ZAb).
      exists Lb. repeat (split; [assumption|]). eapply leads_trans; [exact H1|]. eapply leads_pc; [exact H6|widths].
    - rewrite run_stmt_S. cbn [cstmt sstrs next_slot] in *. apply code_at_app in C. destruct C as [C1 C2].
      unfold sok in O. cbn [exprs_stmt opt_list] in O. inversion O as [|? ? O1 _]; subst x0 l0.
      apply strs_at_app in X. destruct X as [X1 X2]. apply strs_at_one in X2.
      pose proof (He r e st base k [] L rest fr frs F G C1 X1 O1) as H1. cbn [app] in H1.
      destruct (run_expr n r e st) as [[v st1]|y st1| |]; cbn [obind]; [|exact H1|exact I|exact I]. destruct H1 as [G1 H1].
      apply code_at_cons in C2. destruct C2 as [C2 C3]. rewrite sw_getd in C3. apply code_at_ins in C3. cbn [linked_ins] in C3.
      pose proof (read_no_error d r st1) as NE. destruct (read d r st1) as [i| | |] eqn:R; cbn [obind]; [|contradiction|exact I|exact I]. clear NE.
      pose proof (getd_run _ _ _ _ _ [v] L rest fr frs R C2 F G1) as H2. cbn [app] in H2.
      eapply leads_crash; [exact (leads_trans _ _ _ H1 H2)|]. eapply step_crash; [reflexivity|]. eapply st_setm; eassumption.
    - rewrite run_stmt_S. cbn [cstmt sstrs next_slot] in *. apply code_at_app in C. destruct C as [C1 C2]. apply code_at_app in C2. destruct C2 as [C2 C3].
      unfold sok in O. cbn [exprs_stmt opt_list] in O. inversion O as [|? ? O1 O2]; subst x l0. inversion O2 as [|? ? O3 _]; subst x l0.
      apply strs_at_app in X. destruct X as [X1 X2].
      pose proof (He r e st base k [] L rest fr frs F G C1 X1 O3) as H1. cbn [app] in H1.
      destruct (run_expr n r e st) as [[v st1]|y st1| |]; cbn [obind]; [|exact H1|exact I|exact I]. destruct H1 as [G1 H1].
      pose proof (He r i st1 _ _ [v] L rest fr frs F G1 C2 X2 O1) as H2. cbn [app] in H2.
      destruct (run_expr n r i st1) as [[iv st2]|y st2| |]; cbn [obind]; [|exact (leads_crash _ _ _ _ H1 H2)|exact I|exact I]. destruct H2 as [G2 H2].
      apply code_at_cons in C3. destruct C3 as [C3 C4]. rewrite sw_getd in C4. apply code_at_ins in C4. cbn [linked_ins] in C4.
      pose proof (read_no_error d r st2) as NE. destruct (read d r st2) as [a| | |] eqn:R; cbn [obind]; [|contradiction|exact I|exact I]. clear NE.
      pose proof (getd_run _ _ _ _ _ [iv; v] L rest fr frs R C3 F G2) as H3. cbn [app] in H3.
      pose proof (leads_trans _ _ _ H1 (leads_trans _ _ _ H2 H3)) as H4.
      pose proof (st_seta prog (s_heap st2) (map snd (s_glob st2) ++ tail) (s_world st2) (s_new st2) post _ (fstk r L rest) (fr :: frs) a iv v st2 C4 eq_refl) as S.
      destruct (set_element a iv v st2) as [st3|y st3| |]; cbn [obind]; [| |exact I|exact I].
      + destruct S as (E1 & E2 & E3 & S). exists L. split; [exact F|]. split; [unfold glob_ok; rewrite E1; exact G2|].
        repeat (split; [reflexivity|]). eapply leads_trans; [exact H4|].
        match type of C4 with at_ins _ ?pc _ => apply leads_pc with (a := pc + 1) end; [apply step_leads; [reflexivity|]|widths].
        unfold conf at 2. rewrite E1, E2, E3. exact S.
      + destruct S as [-> S]. eapply leads_crash; [exact H4|]. eapply step_crash; [reflexivity|exact S].
    - rewrite run_stmt_S. 
      change (sstrs (RCallS l f es)) with (estrs (RCall l f es)) in X. 
      change (cstmt m sx sp (RCallS l f es) base k) with (cexpr m sx (RCall l f es) k ++ [SI (I1 INS_POP 1)]) in *.
      apply code_at_app in C. destruct C as [C1 C2].
      unfold sok in O. cbn [exprs_stmt opt_list] in O. inversion O as [|? ? O1 _]; subst x l0.
      pose proof (He r (RCall l f es) st base k [] L rest fr frs F G C1 X O1) as H1. cbn [app] in H1.
      destruct (run_expr n r (RCall l f es) st) as [[v st1]|y st1| |]; cbn [obind]; [|exact H1|exact I|exact I]. destruct H1 as [G1 H1].
      exists L. repeat (split; [assumption||reflexivity|]). eapply leads_trans; [exact H1|].
      apply code_at_ins in C2. eapply leads_pc; [apply step_leads; [reflexivity|]; apply st_pop; exact C2|]. widths.
    - rewrite run_stmt_S. cbn [cstmt sstrs next_slot] in *.
      change (match t with Some b => flat_map sstrs b | None => [] end) with (ostrs t) in X.
      change (match f with Some b => flat_map sstrs b | None => [] end) with (ostrs f) in X.
      change (oplaced m size t (zlen (v_locals r)) /\ oplaced m size f (zlen (v_locals r))) in Pl. destruct Pl as [P1 P2].
      unfold sok in O. cbn [exprs_stmt] in O. inversion O as [|? ? O1 O2]; subst x l0. apply Forall_app in O2. destruct O2 as [O2 O3]. apply sok_oblock in O2, O3.
      apply strs_at_app in X. destruct X as [X1 X2]. apply strs_at_app in X2. destruct X2 as [X2 X3].
      set (cc := cexpr m sx c k) in *. set (k1 := k + zlen (estrs c)) in *. set (b1 := base + clen cc + 5) in *.
      change (match t with Some b => cseq (cstmt m sx sp) b b1 k1 | None => [] end) with (coblock m sx sp t b1 k1) in *. set (ct := coblock m sx sp t b1 k1) in *.
      set (L0 := b1 + clen ct + 5) in *.
      change (match f with Some b => cseq (cstmt m sx sp) b L0 (k1 + zlen (ostrs t)) | None => [] end) with (coblock m sx sp f L0 (k1 + zlen (ostrs t))) in *.
      set (cf := coblock m sx sp f L0 (k1 + zlen (ostrs t))) in *.
      assert (Cc : code_at base cc) by (destruct f; apply code_at_app in C; tauto).
      assert (Cj : code_at (base + clen cc) [SI (I1 INS_FJMP (match f with None => b1 + clen ct | Some _ => L0 end))])
        by (destruct f; apply code_at_app in C; destruct C as [_ C]; apply code_at_cons in C; tauto).
      assert (Ct : code_at b1 ct).
      { destruct f; apply code_at_app in C; destruct C as [_ C]; apply code_at_cons in C; destruct C as [_ C];
          (eapply code_at_eq; [|unfold b1; reflexivity]); [apply code_at_app in C; destruct C as [C _]|]; exact C. }
      pose proof (He r c st base k [] L rest fr frs F G Cc X1 O1) as H1. cbn [app] in H1.
      destruct (run_expr n r c st) as [[v st1]|y st1| |]; cbn [obind]; [|exact H1|exact I|exact I]. destruct H1 as [G1 H1]. fold cc in H1.
      pose proof (truth_no_error v st1) as NE. destruct (truth v st1) as [go|e st2| |] eqn:T; cbn [obind]; [|contradiction|exact I|exact I]. clear NE.
      destruct (truth_view _ _ _ T) as (w & V & B). apply code_at_ins in Cj. cbn [linked_ins] in Cj.
      pose proof (st_fjmp prog (s_heap st1) (map snd (s_glob st1) ++ tail) (s_world st1) (s_new st1) post _ (fstk r L rest) (fr :: frs) _ v w Cj V) as S1. rewrite B in S1.
      pose proof (leads_trans _ _ _ H1 (step_leads (conf st1 _ _ _) (conf st1 _ _ _) eq_refl S1)) as H2. clear H1 S1.
      destruct go.
      + pose proof (Hb r t st1 b1 k1 L rest fr frs sp size ZL0 ZS F G1 Ct X2 O2 P1) as H3. fold ct in H3.
        eapply stmt_like_start; [exact H2|]. fold b1. destruct f as [bf|].
        * destruct (run_block n r t st1) as [[[[rv|] r1] st2]|e st2| |]; cbn [stmt_like] in H3 |- *; try exact H3.
          destruct H3 as (L' & A1 & A2 & A3 & A4 & A5 & H3). exists L'. repeat (split; [assumption|]).
          eapply leads_trans; [exact H3|].
          assert (Cj2 : code_at (b1 + clen ct) [SI (I1 INS_JMP (L0 + clen cf))]).
          { apply code_at_app in C; destruct C as [_ C]; apply code_at_cons in C; destruct C as [_ C]. apply code_at_app in C. destruct C as [_ C].
            apply code_at_cons in C. destruct C as [C _]. exact C. }
          apply code_at_ins in Cj2. eapply leads_pc; [apply step_leads; [reflexivity|]; apply st_jmp; exact Cj2|]. unfold L0, b1. widths.
        * eapply stmt_like_stop; [|exact H3]. unfold b1. widths.
      + destruct f as [bf|].
        * assert (Cf : code_at L0 cf).
          { apply code_at_app in C; destruct C as [_ C]; apply code_at_cons in C; destruct C as [_ C]. apply code_at_app in C. destruct C as [_ C].
            apply code_at_cons in C. destruct C as [_ C]. exact C. }
          pose proof (Hb r (Some bf) st1 L0 _ L rest fr frs sp size ZL0 ZS F G1 Cf X3 O3 P2) as H3. fold cf in H3.
          eapply stmt_like_start; [exact H2|]. eapply stmt_like_stop; [|exact H3]. unfold L0, b1. widths.
        * destruct n as [|n']; [rewrite run_block_O; exact I|]. rewrite run_block_S. exists L. repeat (split; [assumption||reflexivity|]).
          eapply leads_pc; [exact H2|]. unfold b1. widths.
    - cbn [next_slot]. eapply stmt_like_start; [|apply (Hw r l c b st base k L rest fr frs sp size ZL0 ZS F G C X O Pl)].
      cbn [cstmt] in C. apply code_at_cons in C. destruct C as [C _]. apply code_at_ins in C. apply step_leads; [reflexivity|]. apply st_jmp. exact C.
    - rewrite run_stmt_S. cbn [cstmt sstrs next_slot] in *. set (ca := cexpr m sx a k ++ [setd m d]) in *. set (k1 := k + zlen (estrs a)) in *. set (L0 := base + clen ca + 5) in *.
      change (cseq (cstmt m sx sp) body L0 k1) with (cblock m sx sp body L0 k1) in *.
      apply code_at_app in C. destruct C as [C1 C2]. apply code_at_cons in C2. destruct C2 as [C2 C3].
      match type of C3 with code_at (?a0 + swidth ?x0) _ => change (a0 + swidth x0) with L0 in C3 end.
      match type of C3 with code_at L0 ?l0 => change l0 with (For_code d b body sp L0 k1) in C3 end.
      unfold ca in C1. apply code_at_app in C1. destruct C1 as [C1 C4].
      unfold sok in O. cbn [exprs_stmt] in O. inversion O as [|? ? O1 O2]; subst x l0. inversion O2 as [|? ? O3 O4]; subst x l0. apply sok_block in O4.
      apply strs_at_app in X. destruct X as [X1 X2].
      pose proof (He r a st base k [] L rest fr frs F G C1 X1 O1) as H1. cbn [app] in H1.
      destruct (run_expr n r a st) as [[v st1]|y st1| |]; cbn [obind]; [|exact H1|exact I|exact I]. destruct H1 as [G1 H1].
      pose proof (write_no_error d v r st1) as NE. destruct (write d v r st1) as [[r2 st3]| | |] eqn:W; cbn [obind]; [|contradiction|exact I|exact I]. clear NE.
      destruct (setd_run _ _ _ _ _ _ _ L rest fr frs W C4 F G1) as (Lb & H6 & Fb & ZLb & G3 & ZVb & ZAb).
      assert (Pl2 : bplaced m size body (zlen (v_locals r2))) by (rewrite ZVb; exact Pl).
      pose proof (Hf r2 d b body st3 L0 k1 Lb rest fr frs sp size (eq_trans ZLb ZL0) (eq_trans ZS (f_equal (fun z => z + size) (eq_sym ZAb))) Fb G3 C3 X2 O4 O3 Pl2) as H8.
      rewrite ZVb in H8. apply code_at_ins in C2. cbn [linked_ins] in C2.
      eapply stmt_like_start; [exact H1|]. eapply stmt_like_start; [exact H6|].
      eapply stmt_like_frame; [exact ZLb|exact ZAb|].
      eapply stmt_like_start; [|eapply stmt_like_stop; [|exact H8]].
      + apply step_leads; [reflexivity|]. replace (base + clen (cexpr m sx a k) + 5) with (base + clen ca) by (unfold ca; widths). apply st_jmp. exact C2.
      + unfold For_code, L0. widths.
    - rewrite run_stmt_S. cbn [cstmt sstrs next_slot] in *. destruct oe as [e|].
      + apply code_at_app in C. destruct C as [C1 C2]. unfold sok in O. cbn [exprs_stmt opt_list] in O. inversion O as [|? ? O1 _]; subst x l0.
        pose proof (He r e st base k [] L rest fr frs F G C1 X O1) as H1. cbn [app] in H1.
        destruct (run_expr n r e st) as [[v st1]|y st1| |]; cbn [obind]; [|exact H1|exact I|exact I]. destruct H1 as [G1 H1].
        split; [exact G1|]. eapply leads_trans; [exact H1|]. apply ret_run. rewrite ZL0, <- ZS. exact C2.
      + apply code_at_app in C. destruct C as [C1 C2]. split; [exact G|]. apply code_at_ins in C1.
        eapply one; [reflexivity|apply st_none; exact C1|]. apply ret_run. rewrite ZL0, <- ZS. exact C2.
  Qed.

  Theorem simulates n : E n /\ Es n /\ Fn n /\ Stm n /\ Stms n /\ Blk n /\ For n /\ Whl n.
  Proof.
    induction n as [|n (H1 & H2 & H3 & H4 & H5 & H6 & H7 & H8)].
    - assert (T : E 0 /\ Es 0 /\ Fn 0 /\ Stm 0 /\ Blk 0 /\ For 0 /\ Whl 0)
        by (unfold E, Es, Fn, Stm, Blk, For, Whl; repeat split; intros; exact I).
      assert (T2 : Stms 0) by (intros r x st base k L rest fr frs sp size; intros; exists (zlen (v_locals r)); split; [lia|exact I]).
      tauto.
    - pose proof (Whl_S n H1 H6 H8) as W.
      split; [apply E_S; assumption|]. split; [apply Es_S; assumption|]. split; [apply Fn_S; assumption|]. split; [apply Stm_S; assumption|].
      split; [apply Stms_S; assumption|]. split; [apply Blk_S; assumption|]. split; [apply For_S; assumption|exact W].
  Qed.
End Sim.
