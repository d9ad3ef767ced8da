(** Proof support: one step of a disciplined program on the ideal heap. *)
From Coq Require Import ZArith List Bool Lia ZifyBool.
From Verif Require Import Base BaseFacts F32 Instr InstrSpec Program VM AbsHeap VmSpec VmFacts CgSpec CgStep CgFlow SafeSpec SafeVmSpec.
Import ListNotations.
Open Scope Z_scope.
Open Scope list_scope.

Lemma Forall_zskipn {A} (Q : A -> Prop) k l : Forall Q l -> Forall Q (zskipn k l).
Proof.
  intros F. rewrite <- (zfirstn_zskipn l k) in F. apply Forall_app in F. apply F.
Qed.
Lemma Forall_zupd {A} (Q : A -> Prop) (v : A) l : forall i, Forall Q l -> Q v -> Forall Q (zupd l i v).
Proof.
  intros i F V. apply Forall_forall. intros x I. apply In_nth_error in I. destruct I as (k & E).
  assert (Z : znth (zupd l i v) (Z.of_nat k) = Some x) by (rewrite znth_nth_error, Nat2Z.id by lia; exact E).
  destruct (Z.eq_dec i (Z.of_nat k)) as [->|N].
  - pose proof (znth_some _ _ _ Z) as R. rewrite zlen_zupd in R. rewrite znth_zupd_same in Z by exact R. congruence.
  - rewrite znth_zupd_other in Z by exact N. apply znth_In in Z. rewrite Forall_forall in F. auto.
Qed.
Lemma Forall_zrepeat {A} (Q : A -> Prop) (v : A) k : Q v -> Forall Q (zrepeat v k).
Proof. intros H. unfold zrepeat. induction (Z.to_nat k); cbn [repeat]; constructor; auto. Qed.
Lemma stack_top {A} (l : list A) : 1 <= zlen l -> exists x r, l = x :: r.
Proof. destruct l as [|x r]; [rewrite zlen_nil; lia|eauto]. Qed.
Lemma reads_nonneg fn n : reads fn n -> 0 <= n.
Proof. destruct fn; cbn [reads]; lia. Qed.
Lemma reads_dec fn n : reads fn n \/ ~ reads fn n.
Proof. destruct fn; cbn [reads]; lia. Qed.

Section Safe.
  Variable q : program_t.
  Hypothesis V : verified q.

  (** ** Monotonicity: more arrays do no harm *)
  Lemma val_mono n n' v : n <= n' -> val_ok q n v -> val_ok q n' v.
  Proof. intros L. destruct v as [|[]|]; cbn [val_ok]; auto. lia. Qed.
  Lemma vals_mono n n' l : n <= n' -> Forall (val_ok q n) l -> Forall (val_ok q n') l.
  Proof. intros L. apply Forall_impl. intros v. now apply val_mono. Qed.
  Lemma thread_mono n n' t : n <= n' -> thread_ok q n t -> thread_ok q n' t.
  Proof. intros L [A B C D]. constructor; auto. eapply vals_mono; eassumption. Qed.
  Lemma threads_mono n n' l : n <= n' -> Forall (thread_ok q n) l -> Forall (thread_ok q n') l.
  Proof. intros L. apply Forall_impl. intros t. now apply thread_mono. Qed.
  Definition heap_ok (h : aheap) : Prop := Forall (Forall (val_ok q (zlen h))) h.
  Lemma heap_new h l : heap_ok h -> Forall (val_ok q (zlen h)) l -> heap_ok (h ++ [l]).
  Proof.
    unfold heap_ok. intros A B. rewrite zlen_app. change (zlen [l]) with 1. apply Forall_app. split.
    - eapply Forall_impl; [|exact A]. intros x. apply vals_mono. lia.
    - constructor; [|constructor]. eapply vals_mono; [|exact B]. lia.
  Qed.
  Lemma heap_get h l x : heap_ok h -> znth h l = Some x -> Forall (val_ok q (zlen h)) x.
  Proof. intros A E. apply znth_In in E. unfold heap_ok in A. rewrite Forall_forall in A. auto. Qed.
  Lemma heap_set h l x k v : heap_ok h -> znth h l = Some x -> val_ok q (zlen h) v -> heap_ok (zupd h l (zupd x k v)).
  Proof.
    intros A E B. unfold heap_ok. rewrite zlen_zupd. apply Forall_zupd; [exact A|]. apply Forall_zupd; [|exact B]. eapply heap_get; eassumption.
  Qed.

  (** ** Shapes *)
  Lemma shape_in a n frs : shape q a n frs -> exists fr rest f size h, frs = fr :: rest /\ In f (p_functions q) /\ disciplined q f size h /\
    starts q (f_start f) a /\ a < f_end f /\ num_args f <= fr_sp fr /\ n = fr_sp fr + h a /\
    (forall b m, starts q (f_start f) b -> b < f_end f -> m = fr_sp fr + h b -> shape q b m frs) /\
    match rest with [] => fr_sp fr = num_args f | _ => shape q (fr_ret fr) (fr_sp fr - num_args f + 1) rest end.
  Proof.
    intros S. destruct S as [a n fr f size h I D St L E N|a n fr fr' frs f size h I D St L E N S].
    - exists fr, [], f, size, h. repeat (split; [first [assumption|reflexivity|lia]|]). split; [|exact E].
      intros b m Sb Lb Em. eapply shape_last; eassumption.
    - exists fr, (fr' :: frs), f, size, h. repeat (split; [first [assumption|reflexivity|lia]|]). split; [|exact S].
      intros b m Sb Lb Em. eapply shape_call; eassumption.
  Qed.
  Lemma nargs_nonneg f : 0 <= num_args f. Proof. apply zlen_nonneg. Qed.

  (** What is known about the instruction at hand *)
  Lemma at_hand a n frs : shape q a n frs -> exists x fr rest f size, at_ins q a x /\ frs = fr :: rest /\ In f (p_functions q) /\ starts q (f_start f) a /\ a < f_end f /\ operand_ok q f size x /\ 0 <= size /\
    num_args f <= fr_sp fr /\ pops x <= n /\ 0 <= fr_sp fr /\
    (forall o, x = I1 INS_RET o -> n = fr_sp fr + size + 1) /\
    (forall b, follows a x b -> shape q b (n - pops x + pushes x) frs) /\
    match rest with [] => fr_sp fr = num_args f | _ => shape q (fr_ret fr) (fr_sp fr - num_args f + 1) rest end.
  Proof.
    intros S. destruct (shape_in _ _ _ S) as (fr & rest & f & size & h & E & I & D & St & L & A & N & Nx & R).
    destruct (di_code _ _ _ _ D a St L) as (x & At & O & En & Fo). pose proof (di_size _ _ _ _ D) as Sz. pose proof (nargs_nonneg f) as Na.
    exists x, fr, rest, f, size. repeat (split; [assumption|]). split; [|split; [lia|split; [|split]]].
    - unfold enough in En. destruct x as [i|i o|i o1 o2]; try lia. destruct i; cbn [pops] in *; lia.
    - intros o ->. cbn [enough] in En. lia.
    - intros b Fb. destruct (Fo b Fb) as (B1 & B2 & B3). apply Nx; auto. lia.
    - exact R.
  Qed.

  Lemma find_start a f : function_at q a f -> function_find_pc q a = Some f.
  Proof.
    intros [I E]. unfold function_find_pc. pose proof (ve_range _ V _ I) as R.
    destruct (find _ _) as [g|] eqn:F.
    - apply find_some in F. destruct F as [J C]. destruct (ve_apart _ V _ _ I J) as [->|D]; [reflexivity|lia].
    - pose proof (find_none _ _ F _ I) as N. cbv beta in N. lia.
  Qed.
  Lemma enters a f sp ret' frs : function_at q a f -> num_args f <= sp -> frs <> [] -> shape q ret' (sp - num_args f + 1) frs ->
    shape q a sp (Frame sp ret' a false :: frs).
  Proof.
    intros [I E] L N S. destruct (ve_code _ V _ I) as (size & h & D). pose proof (ve_range _ V _ I) as R.
    destruct frs as [|fr' frs]; [congruence|]. eapply shape_call; [exact I|exact D| | |exact L| |exact S].
    - rewrite E. apply starts_here.
    - lia.
    - pose proof (di_entry _ _ _ _ D). cbn [fr_sp]. rewrite <- E. lia.
  Qed.

  (** ** Threads and states *)
  Lemma th_next n p stk frs hal cyc wts last bps : Forall (val_ok q n) stk -> shape q p (zlen stk) frs ->
    thread_ok q n (Thread p stk frs None false hal cyc wts last bps).
  Proof. intros A B. constructor; cbn [t_stk t_fin t_err t_pc t_frs]; auto; discriminate. Qed.
  Lemma th_raise n p stk frs e hal cyc wts last bps : Forall (val_ok q n) stk -> ~ confused e ->
    thread_ok q n (Thread p stk frs (Some e) true hal cyc wts last bps).
  Proof. intros A B. constructor; cbn [t_stk t_fin t_err t_pc t_frs]; auto; try discriminate. intros e' E. inversion E; subst. exact B. Qed.
  Lemma th_done n p stk frs hal cyc wts last bps : Forall (val_ok q n) stk -> stk <> [] ->
    thread_ok q n (Thread p stk frs None true hal cyc wts last bps).
  Proof. intros A B. constructor; cbn [t_stk t_fin t_err t_pc t_frs]; auto; discriminate. Qed.
  Lemma join_ok (s : mst aval aheap) : vm_ok q (join s) <-> heap_ok (m_heap s) /\ Forall (val_ok q (zlen (m_heap s))) (m_glob s) /\
    Forall (thread_ok q (zlen (m_heap s))) (m_pre s) /\ thread_ok q (zlen (m_heap s)) (m_cur s) /\ Forall (thread_ok q (zlen (m_heap s))) (m_post s).
  Proof.
    split.
    - intros [A B C]. cbn [join vm_heap vm_glob vm_threads] in *. apply Forall_app in C. destruct C as [C1 C2]. inversion C2; subst. auto 10.
    - intros (A & B & C & D & E). constructor; cbn [join vm_heap vm_glob vm_threads]; auto. apply Forall_app. auto.
  Qed.
  Lemma core_ok (s s' : mst aval aheap) : core s = core s' -> vm_ok q (join s) -> vm_ok q (join s').
  Proof.
    unfold core. intros E. inversion E as [[E1 E2 E3 E4 E5 E6 E7 E8 E9 E10]]. rewrite !join_ok, E1, E2, E4, E5. intros (A & B & C & [D1 D2 D3 D4] & F).
    repeat (split; [assumption|]). split; [|assumption]. constructor; rewrite <- ?E6, <- ?E7, <- ?E8, <- ?E9, <- ?E10; assumption.
  Qed.

  Definition good (s : mst aval aheap) (r : res (unit * mst aval aheap)) : Prop :=
    match r with Ok (_, s') => vm_ok q (join s') | Err _ _ => False | Stuck x => crash q s x end.

  (** ** Operators *)
  Definition simple (c : scell) : Prop := match c with SFun _ | SSys _ => False | _ => True end.
  Lemma simple_ok n c : simple c -> val_ok q n (AS c). Proof. destruct c; cbn; tauto. Qed.
  Definition clear_err (e : terr) : Prop := ~ confused e.
  Lemma binop_out i f h l r x y : binop i = Some f -> abs_view h l = Ok x -> abs_view h r = Ok y ->
    match f (plain x) (plain y) with
    | Ok (OPush c) => simple c
    | Ok (ORaise e) => ~ confused e
    | Err _ _ => False
    | Stuck SOverflow => exists a b z, l = AS (SInt a) /\ r = AS (SInt b) /\ exact i a b = Some z /\ in_i32 z = false
    | Stuck SAssert => i = INS_ADD /\ (is_text l /\ no_text r \/ no_text l /\ is_text r)
    | Stuck _ => False
    end.
  Proof.
    assert (NC : ~ confused e_bad_type_operation) by (unfold confused; intuition discriminate).
    assert (ND : ~ confused e_bad_divide_by_zero) by (unfold confused; intuition discriminate).
    intros E L R. destruct l as [|[]|lo]; destruct r as [|[]|ro]; cbn [abs_view] in L, R;
      try (destruct (znth h lo); [|discriminate]); try (destruct (znth h ro); [|discriminate]);
      inversion L; inversion R; subst; destruct i; cbn [binop] in E; inversion E; subst f; clear E;
      cbn [plain op_add op_sub op_mul op_div op_mod op_and op_or op_lt op_gt op_leq op_geq op_eq is_number andb float_op float_cmp as_float bind to_text simple];
      auto; try exact Logic.I; try (unfold chk32; match goal with |- context [in_i32 ?z] => destruct (in_i32 z) eqn:?; cbn [bind simple]; [exact Logic.I|eexists _, _, _; split; [reflexivity|]; split; [reflexivity|]; split; [reflexivity|assumption]] end);
      try (split; [reflexivity|]; cbn [is_text no_text]; tauto).
    all: cbn [exact]; destruct (_ =? 0) eqn:Z0; [exact ND|]; unfold chk32; destruct (in_i32 _) eqn:I32; cbn [bind simple]; [exact Logic.I|];
      eexists _, _, _; split; [reflexivity|]; split; [reflexivity|]; cbn [exact]; rewrite Z0; auto.
  Qed.

  Section State.
    Variables (h : aheap) (g : list aval) (w : world) (pre post : list (thread aval)) (a : Z) (stk : list aval) (frs : list frame)
      (hal : bool) (cyc wts : Z) (last : line_t) (bps : list line_t).
    Hypothesis Hh : heap_ok h.
    Hypothesis Hg : Forall (val_ok q (zlen h)) g.
    Hypothesis Hpre : Forall (thread_ok q (zlen h)) pre.
    Hypothesis Hpost : Forall (thread_ok q (zlen h)) post.
    Hypothesis Hs : Forall (val_ok q (zlen h)) stk.
    Hypothesis Sh : shape q a (zlen stk) frs.
    Definition St (p : Z) (s : list aval) : mst aval aheap := Mst h g w pre (Thread p s frs None false hal cyc wts last bps) post.
    Notation s0 := (St a stk).

    Lemma ok_gen h' g' w' pre' t' : zlen h <= zlen h' -> heap_ok h' -> Forall (val_ok q (zlen h')) g' -> Forall (thread_ok q (zlen h')) pre' ->
      thread_ok q (zlen h') t' -> vm_ok q (join (Mst h' g' w' pre' t' post)).
    Proof. intros L A B C D. apply join_ok. cbn [m_heap m_glob m_pre m_cur m_post]. repeat (split; [assumption|]). eapply threads_mono; eassumption. Qed.
    Lemma ok_same w' t' : thread_ok q (zlen h) t' -> vm_ok q (join (Mst h g w' pre t' post)).
    Proof. intros T. apply ok_gen; auto. lia. Qed.
    Lemma ok_new w' x t' : Forall (val_ok q (zlen h)) x -> thread_ok q (zlen (h ++ [x])) t' -> vm_ok q (join (Mst (h ++ [x]) g w' pre t' post)).
    Proof.
      intros X T. assert (L : zlen h <= zlen (h ++ [x])) by (rewrite zlen_app; change (zlen [x]) with 1; lia).
      apply ok_gen; auto; [apply heap_new; assumption|eapply vals_mono; eassumption|eapply threads_mono; eassumption].
    Qed.
    Lemma new_val x l : Forall (val_ok q (zlen h)) l -> Forall (val_ok q (zlen (h ++ [x]))) (AArr (zlen h) :: l).
    Proof.
      rewrite zlen_app. change (zlen [x]) with 1. intros F. constructor; [cbn [val_ok]; pose proof (zlen_nonneg h); lia|]. eapply vals_mono; [|exact F]. lia.
    Qed.
    Lemma view_ok v : val_ok q (zlen h) v -> exists x, abs_view h v = Ok x.
    Proof.
      destruct v as [|c|l]; cbn [val_ok abs_view]; eauto. intros R. destruct (znth_in h l R) as [x E]. rewrite E. eauto.
    Qed.
    Lemma pop_n_St k : forall p l, (k <= List.length l)%nat -> pop_n k (St p l) = Ok (firstn k l, St p (skipn k l)).
    Proof.
      induction k as [|k IH]; intros p l L; [reflexivity|]. destruct l as [|v l]; cbn [List.length] in L; [lia|].
      cbn [pop_n]. unfold mbind at 1. change (@pop aval aheap (St p (v :: l))) with (@Ok (aval * mst aval aheap) (v, St p l)).
      cbn beta iota. unfold mbind. rewrite IH by lia. reflexivity.
    Qed.
    Lemma copy_out l s : m_heap s = h -> Forall (val_ok q (zlen h)) l ->
      copy_all abs_ops l s = Ok (l, s) \/ (copy_all abs_ops l s = Stuck SAssert /\ exists x, In (AArr x) l).
    Proof.
      intros E F. induction F as [|v l O F IH]; [left; reflexivity|]. cbn [copy_all].
      destruct v as [|c|x].
      - destruct IH as [IH|(IH & x & I)]; [left|right; split; [|exists x; now right]]; unfold mbind at 1;
          (replace (gc_copy abs_ops ANone s) with (@Ok (aval * mst aval aheap) (ANone, s)) by (destruct s; reflexivity)); cbn beta iota;
          unfold mbind; rewrite IH; reflexivity.
      - destruct IH as [IH|(IH & x & I)]; [left|right; split; [|exists x; now right]]; unfold mbind at 1;
          (replace (gc_copy abs_ops (AS c) s) with (@Ok (aval * mst aval aheap) (AS c, s)) by (destruct s; reflexivity)); cbn beta iota;
          unfold mbind; rewrite IH; reflexivity.
      - right. split; [|exists x; now left]. destruct (view_ok (AArr x) O) as (y & Y). unfold gc_copy, mbind, deref, lift. cbn [abs_ops h_view]. rewrite E, Y.
        cbn [abs_view] in Y. destruct (znth h x); inversion Y. reflexivity.
    Qed.

    (** *** Running a little further *)
    Lemma shape_at p n m : shape q p n frs -> n = m -> shape q p m frs. Proof. now intros X <-. Qed.
    Lemma G_pop v l p k : good s0 (k v (St p l)) -> good s0 (mbind (@pop aval aheap) k (St p (v :: l))). Proof. trivial. Qed.
    Lemma G_deref v x s k : m_heap s = h -> abs_view h v = Ok x -> good s0 (k x s) -> good s0 (mbind (deref abs_ops v) k s).
    Proof. intros E X. unfold mbind, deref, lift. cbn [abs_ops h_view]. now rewrite E, X. Qed.
    Lemma G_popv v x l p k : abs_view h v = Ok x -> good s0 (k x (St p l)) -> good s0 (mbind (pop_v abs_ops) k (St p (v :: l))).
    Proof.
      intros X G. unfold pop_v. change (good s0 (mbind (deref abs_ops v) k (St p l))). now apply (G_deref v x).
    Qed.
    Lemma G_raise e p l : ~ confused e -> Forall (val_ok q (zlen h)) l -> good s0 (raise e (St p l)).
    Proof. intros E F. apply ok_same. now apply th_raise. Qed.
    Lemma G_raise_push e v p l : ~ confused e -> Forall (val_ok q (zlen h)) l -> val_ok q (zlen h) v -> good s0 (mbind (raise e) (fun _ => push v) (St p l)).
    Proof. intros E F O. apply ok_same. apply th_raise; auto. Qed.
    Lemma G_raise_s e c p l : ~ confused e -> Forall (val_ok q (zlen h)) l -> simple c -> good s0 (mbind (raise e) (fun _ => push_s abs_ops c) (St p l)).
    Proof. intros E F O. apply ok_same. apply th_raise; auto. constructor; [now apply simple_ok|exact F]. Qed.
    Lemma G_push v p l : Forall (val_ok q (zlen h)) l -> val_ok q (zlen h) v -> shape q p (zlen l + 1) frs -> good s0 (push v (St p l)).
    Proof. intros F O X. apply ok_same. apply th_next; auto. rewrite zlen_cons. exact X. Qed.
    Lemma G_push_s c p l : Forall (val_ok q (zlen h)) l -> val_ok q (zlen h) (AS c) -> shape q p (zlen l + 1) frs -> good s0 (push_s abs_ops c (St p l)).
    Proof. apply G_push. Qed.
    Lemma G_new x p l : Forall (val_ok q (zlen h)) l -> Forall (val_ok q (zlen h)) x -> shape q p (zlen l + 1) frs ->
      good s0 (mbind (new_a abs_ops x) (fun p => push p) (St p l)).
    Proof. intros F O X. apply ok_new; auto. apply th_next; [now apply new_val|]. rewrite zlen_cons. exact X. Qed.
    Lemma G_stay p l : Forall (val_ok q (zlen h)) l -> shape q p (zlen l) frs -> good s0 (ret tt (St p l)).
    Proof. intros F X. apply ok_same. now apply th_next. Qed.
    Lemma G_jump o p l : Forall (val_ok q (zlen h)) l -> shape q o (zlen l) frs -> good s0 (mod_cur (fun t => t_set_pc t o) (St p l)).
    Proof. intros F X. apply ok_same. now apply th_next. Qed.
    Lemma G_op i o l k : at_ins q a (I1 i o) -> good s0 (k o (St (a + 5) l)) -> good s0 (mbind (operand q) k (St (a + 1) l)).
    Proof.
      intros A G. unfold mbind. rewrite (operand_later q (St (a + 1) l) i o).
      - unfold with_cur, St, pc, t_set_pc. cbn [m_cur t_pc t_stk t_frs t_err t_fin t_hal t_cyc t_waits t_last t_bps m_heap m_glob m_world m_pre m_post].
        replace (a + 1 + 4) with (a + 5) by lia. exact G.
      - unfold pc, St. cbn [m_cur t_pc]. replace (a + 1 - 1) with a by lia. exact A.
    Qed.
    Lemma G_op2 i o1 o2 l k : at_ins q a (I2 i o1 o2) -> good s0 (k o1 o2 (St (a + 9) l)) ->
      good s0 (mbind (operand q) (fun x => mbind (operand q) (k x)) (St (a + 1) l)).
    Proof.
      intros A G. destruct (operand2_at q (St a l) i o1 o2 A) as [O1 O2].
      unfold mbind. change (St (a + 1) l) with (with_cur (St a l) (t_set_pc (m_cur (St a l)) (pc (St a l) + 1))). rewrite O1, O2. exact G.
    Qed.

    (** *** Host functions *)
    Lemma NC_arg : ~ confused e_bad_argument. Proof. unfold confused; intuition discriminate. Qed.
    Lemma NC_type : ~ confused e_bad_type_operation. Proof. unfold confused; intuition discriminate. Qed.
    Lemma NC_num : ~ confused e_bad_num_args. Proof. unfold confused; intuition discriminate. Qed.
    Lemma sys_float_ok k p v l : val_ok q (zlen h) v -> Forall (val_ok q (zlen h)) l -> shape q p (zlen l + 1) frs ->
      good s0 (sys_float abs_ops k (St p (v :: l))).
    Proof.
      intros O F X. destruct (view_ok v O) as (x & E). unfold sys_float. apply (G_popv v x); [exact E|].
      destruct x as [|[]|]; cbn [plain is_number as_float]; try (apply G_raise; [apply NC_arg|exact F]); apply G_push_s; auto; exact Logic.I.
    Qed.
    Lemma pop_hargs_ok k : forall p l, (k <= List.length l)%nat -> Forall (val_ok q (zlen h)) l ->
      exists args, pop_hargs abs_ops k (St p l) = Ok (args, St p (skipn k l)).
    Proof.
      induction k as [|k IH]; intros p l L F; [exists []; reflexivity|]. destruct l as [|v l]; [cbn in L; lia|].
      inversion F as [|? ? O F']; subst. destruct (view_ok v O) as (x & E). destruct (IH p l) as (args & R); [cbn in L; lia|exact F'|].
      exists (harg_of x :: args). cbn [pop_hargs skipn]. unfold mbind at 1. unfold pop_v, mbind at 1, pop. cbn [St m_cur t_stk].
      unfold deref, lift. cbn [abs_ops h_view]. unfold mod_cur, ret, mbind. 
      match goal with |- context [abs_view ?hh v] => change hh with h end. rewrite E.
      match goal with |- context [pop_hargs abs_ops k ?s] => change s with (St p l) end. rewrite R. reflexivity.
    Qed.
    Lemma sys_ok fn n p l : reads fn n -> n <= zlen l -> Forall (val_ok q (zlen h)) l -> shape q p (zlen l - n + 1) frs ->
      calling q s0 fn n l -> good s0 (run_sys abs_ops q fn n (St p l)).
    Proof.
      intros R L F X Ca.
      assert (One : n = 1 -> exists v x r, l = v :: r /\ abs_view h v = Ok x /\ val_ok q (zlen h) v /\ Forall (val_ok q (zlen h)) r /\ shape q p (zlen r + 1) frs).
      { intros ->. destruct (stack_top l L) as (v & r & ->). inversion F; subst. destruct (view_ok v) as (x & E); [assumption|].
        exists v, x, r. rewrite zlen_cons in X. repeat (split; [first [reflexivity|assumption]|]). eapply shape_at; [exact X|lia]. }
      assert (Two : n = 2 -> exists v x v' x' r, l = v :: v' :: r /\ abs_view h v = Ok x /\ abs_view h v' = Ok x' /\ Forall (val_ok q (zlen h)) r /\ shape q p (zlen r + 1) frs).
      { intros ->. destruct (stack_top l) as (v & r & ->); [lia|]. rewrite zlen_cons in *. destruct (stack_top r) as (v' & r' & ->); [lia|]. rewrite zlen_cons in *.
        inversion F as [|? ? O F']; subst. inversion F'; subst. destruct (view_ok v) as (x & E); [assumption|]. destruct (view_ok v') as (x' & E'); [assumption|].
        exists v, x, v', x', r'. repeat (split; [first [reflexivity|assumption]|]). eapply shape_at; [exact X|lia]. }
      destruct fn; cbn [reads] in R;
        try (destruct (One R) as (v & x & r & -> & E & O & Fr & Sx)); try (destruct (Two R) as (v & x & v' & x' & r & -> & E & E' & Fr & Sx));
        try (apply sys_float_ok; assumption); cbn [run_sys].
      - (* abs *) apply (G_popv v x); [exact E|]. destruct v as [|[]|lo]; cbn [abs_view] in E; try (destruct (znth h lo)); inversion E; subst x;
          try (apply G_raise; [apply NC_arg|assumption]); [|apply G_push_s; auto; exact Logic.I].
        destruct (z <? 0) eqn:N; [|apply G_push_s; auto; exact Logic.I]. unfold chk32. destruct (in_i32 (- z)) eqn:N'; [apply G_push_s; auto; exact Logic.I|].
        eapply crash_abs; eassumption.
      - (* max *) apply (G_popv v x); [exact E|]. apply (G_popv v' x'); [exact E'|].
        destruct x as [|[]|]; destruct x' as [|[]|]; cbn [plain is_number as_float andb]; try (apply G_raise; [apply NC_arg|assumption]); apply G_push_s; auto; exact Logic.I.
      - (* min *) apply (G_popv v x); [exact E|]. apply (G_popv v' x'); [exact E'|].
        destruct x as [|[]|]; destruct x' as [|[]|]; cbn [plain is_number as_float andb]; try (apply G_raise; [apply NC_arg|assumption]); apply G_push_s; auto; exact Logic.I.
      - (* bitand *) apply (G_popv v x); [exact E|]. apply (G_popv v' x'); [exact E'|].
        destruct x as [|[]|]; destruct x' as [|[]|]; try (apply G_raise; [apply NC_arg|assumption]); apply G_push_s; auto; exact Logic.I.
      - (* len *) apply (G_popv v x); [exact E|]. destruct x as [|[]|]; try (apply G_raise; [apply NC_arg|assumption]); apply G_push_s; auto; exact Logic.I.
      - (* chr *) apply (G_popv v x); [exact E|]. destruct x as [|[]|]; try (apply G_raise; [apply NC_arg|assumption]); apply G_push_s; auto; exact Logic.I.
      - (* new_thread *) destruct (n <=? 0) eqn:N0; [apply G_raise; [apply NC_arg|assumption]|].
        assert (Ln : (Z.to_nat (n - 1) < List.length l)%nat) by (unfold zlen in L; lia).
        unfold mbind at 1. rewrite pop_n_St by lia. remember (Z.to_nat (n - 1)) as k eqn:Ek.
        assert (El : l = firstn k l ++ skipn k l) by (symmetry; apply firstn_skipn).
        assert (Lk : zlen l = zlen (firstn k l) + zlen (skipn k l)) by (rewrite <- zlen_app, firstn_skipn; reflexivity).
        assert (Lf : zlen (firstn k l) = n - 1) by (unfold zlen; rewrite firstn_length; lia).
        pose proof F as F'. rewrite El in F'. apply Forall_app in F'. destruct F' as [F1 F2].
        destruct (skipn k l) as [|v r] eqn:Es; [rewrite zlen_nil in Lk; lia|]. rewrite zlen_cons in Lk.
        assert (O : val_ok q (zlen h) v) by now inversion F2. assert (Fr : Forall (val_ok q (zlen h)) r) by now inversion F2. destruct (view_ok v O) as (x & E). 
        assert (Lr : zlen l = n - 1 + (zlen r + 1)) by lia.
        apply (G_popv v x); [exact E|].
        destruct x as [|c|]; try (apply G_raise; [apply NC_arg|assumption]). destruct c as [| | |fa|]; try (apply G_raise; [apply NC_arg|assumption]).
        assert (Ev : v = AS (SFun fa)) by (destruct v as [|c|lo]; cbn [abs_view] in E; [discriminate|congruence|destruct (znth h lo); discriminate]).
        subst v. cbn [val_ok] in O. destruct O as (f & Fa). rewrite (find_start _ _ Fa).
        destruct (num_args f + 1 =? n) eqn:Na; cbn [negb]; [|apply G_raise; [apply NC_arg|assumption]].
        unfold new_thread. assert (Zr : zlen (rev (firstn k l)) = n - 1) by (unfold zlen; rewrite rev_length; exact Lf).
        replace (num_args f =? zlen (rev (firstn k l))) with true by lia. unfold mbind at 1. unfold mbind at 1.
        destruct (copy_out (rev (firstn k l)) (St p r)) as [C|(C & lo & I)]; [reflexivity|now apply Forall_rev| |].
        + rewrite C. cbn beta iota. apply ok_gen; [apply Z.le_refl|exact Hh|exact Hg| |].
          * constructor; [|exact Hpre]. unfold prepared. rewrite rev_involutive. apply th_next; [exact F1|]. rewrite Zr, Lf.
            destruct Fa as [I Ef]. destruct (ve_code _ V _ I) as (size & hh & D). pose proof (ve_range _ V _ I) as Rg.
            eapply shape_last; [exact I|exact D|apply starts_here|lia|cbn [fr_sp]; lia|]. cbn [fr_sp]. pose proof (di_entry _ _ _ _ D). lia.
          * apply th_next; [constructor; [exact Logic.I|exact Fr]|]. rewrite zlen_cons. change (shape q p (zlen r + 1) frs). eapply shape_at; [exact X|lia].
        + rewrite C. cbn beta iota. apply (crash_thread q s0 n (firstn k l) (AS (SFun fa) :: r) lo); [rewrite <- El; exact Ca|exact Lf|now apply in_rev].
      - (* wait *) apply (G_popv v x); [exact E|].
        destruct v as [|[]|lo]; cbn [abs_view] in E; try (destruct (znth h lo)); inversion E; subst x; cbn [plain is_number];
          try (apply G_raise; [apply NC_arg|assumption]).
        + cbn [as_int]. unfold mbind at 1, lift. destruct (0 <? z); apply ok_same; (apply th_next; [constructor; [exact Logic.I|assumption]|]); change (shape q p (zlen (AS (SInt 0) :: r)) frs); rewrite zlen_cons; exact Sx.
        + cbn [as_int]. unfold mbind at 1, lift. destruct (f_to_int f) as [z| |y] eqn:Ft.
          * destruct (0 <? z); apply ok_same; (apply th_next; [constructor; [exact Logic.I|assumption]|]); change (shape q p (zlen (AS (SInt 0) :: r)) frs); rewrite zlen_cons; exact Sx.
          * destruct f; cbn [f_to_int] in Ft; try discriminate. destruct (in_i32 _); discriminate.
          * assert (y = SCast) as -> by (destruct f; cbn [f_to_int] in Ft; try congruence; destruct (in_i32 _); congruence).
            eapply crash_cast; [left; reflexivity|exact Ca|congruence].
      - (* new_array *) apply (G_popv v x); [exact E|].
        destruct v as [|[]|lo]; cbn [abs_view] in E; try (destruct (znth h lo)); inversion E; subst x; cbn [plain is_number];
          try (apply G_raise; [apply NC_arg|assumption]).
        + cbn [as_int]. unfold mbind at 1, lift. destruct (z <=? 0); [apply G_raise; [apply NC_arg|assumption]|].
          apply G_new; auto. apply Forall_zrepeat. exact Logic.I.
        + cbn [as_int]. unfold mbind at 1, lift. destruct (f_to_int f) as [z| |y] eqn:Ft.
          * destruct (z <=? 0); [apply G_raise; [apply NC_arg|assumption]|]. apply G_new; auto. apply Forall_zrepeat. exact Logic.I.
          * destruct f; cbn [f_to_int] in Ft; try discriminate. destruct (in_i32 _); discriminate.
          * assert (y = SCast) as -> by (destruct f; cbn [f_to_int] in Ft; try congruence; destruct (in_i32 _); congruence).
            eapply crash_cast; [right; left; reflexivity|exact Ca|congruence].
      - (* rand *) subst n. apply ok_same. apply th_next; [constructor; [exact Logic.I|assumption]|]. change (shape q p (zlen (ANone :: l)) frs). rewrite zlen_cons. eapply shape_at; [exact X|lia].
      - (* getc *) subst n. unfold mbind at 1, mget. cbn [St m_world]. destruct (w_in w); apply ok_same; (apply th_next; [constructor; [exact Logic.I|assumption]|]);
          change (shape q p (zlen (ANone :: l)) frs); rewrite zlen_cons; (eapply shape_at; [exact X|lia]).
      - (* putc *) apply (G_popv v x); [exact E|].
        destruct v as [|[]|lo]; cbn [abs_view] in E; try (destruct (znth h lo)); inversion E; subst x; try (apply G_raise_s; [apply NC_arg|assumption|exact Logic.I]).
        + eapply crash_print; [left; reflexivity|exact Ca].
        + apply ok_same. apply th_next; [constructor; [exact Logic.I|assumption]|change (shape q p (zlen (ANone :: r)) frs); rewrite zlen_cons; exact Sx].
      - (* gets *) subst n. unfold mbind at 1, mget. cbn [St m_world]. destruct (w_in w) as [|c0 i0] eqn:Ew.
        + eapply crash_input; [exact Ca|exact Ew].
        + destruct (fgets 79 (c0 :: i0)) as [si ri]. apply ok_same; (apply th_next; [constructor; [exact Logic.I|assumption]|]);
          change (shape q p (zlen (ANone :: l)) frs); rewrite zlen_cons; (eapply shape_at; [exact X|lia]).
      - (* puts *) apply (G_popv v x); [exact E|].
        destruct v as [|[]|lo]; cbn [abs_view] in E; try (destruct (znth h lo)); inversion E; subst x; try (apply G_raise_s; [apply NC_arg|assumption|exact Logic.I]).
        + eapply crash_print; [right; reflexivity|exact Ca].
        + apply ok_same. apply th_next; [constructor; [exact Logic.I|assumption]|change (shape q p (zlen (ANone :: r)) frs); rewrite zlen_cons; exact Sx].
      - (* host *) rename n0 into k.
        assert (Lk : (k <= List.length l)%nat) by (unfold zlen in L; lia). destruct (pop_hargs_ok k p l Lk F) as (args & R').
        unfold mbind at 1. rewrite R'.
        assert (Fr : Forall (val_ok q (zlen h)) (skipn k l)) by (rewrite <- (firstn_skipn k l) in F; apply Forall_app in F; apply F).
        assert (Lr : zlen (skipn k l) = zlen l - n) by (unfold zlen; rewrite skipn_length; unfold zlen in L; lia).
        unfold mbind at 1, mget. cbn [St m_world]. cbv zeta. unfold mbind at 1, set_world. destruct (w_host _ _) as [[| | |]|].
        1-4: apply ok_same; (apply th_next; [constructor; [exact Logic.I|assumption]|]); change (shape q p (zlen (ANone :: skipn k l)) frs); rewrite zlen_cons; (eapply shape_at; [exact X|lia]).
        apply ok_same. apply th_raise; [assumption|apply NC_arg].
      - (* sleep *) apply (G_popv v x); [exact E|].
        destruct v as [|[]|lo]; cbn [abs_view] in E; try (destruct (znth h lo)); inversion E; subst x; cbn [plain is_number];
          try (apply G_push; [assumption|exact Logic.I|exact Sx]).
        + apply ok_same; (apply th_next; [constructor; [exact Logic.I|assumption]|]); change (shape q p (zlen (ANone :: r)) frs); rewrite zlen_cons; exact Sx.
        + cbn [as_int]. unfold mbind at 1, lift. destruct (f_to_int f) as [z| |y] eqn:Ft.
          * apply ok_same; (apply th_next; [constructor; [exact Logic.I|assumption]|]); change (shape q p (zlen (ANone :: r)) frs); rewrite zlen_cons; exact Sx.
          * destruct f; cbn [f_to_int] in Ft; try discriminate. destruct (in_i32 _); discriminate.
          * assert (y = SCast) as -> by (destruct f; cbn [f_to_int] in Ft; try congruence; destruct (in_i32 _); congruence).
            eapply crash_cast; [right; right; reflexivity|exact Ca|congruence].
    Qed.

    (** *** Instructions *)
    Lemma unop_out i f v x : unop i = Some f -> abs_view h v = Ok x ->
      match f (plain x) with
      | Ok (OPush c) => simple c
      | Ok (ORaise e) => ~ confused e
      | Err _ _ => False
      | Stuck y => y = SOverflow /\ i = INS_NEG /\ exists z, v = AS (SInt z) /\ in_i32 (- z) = false
      end.
    Proof.
      intros E X. destruct i; cbn [unop] in E; inversion E; subst f; [exact Logic.I|].
      destruct v as [|[]|lo]; cbn [abs_view] in X; try (destruct (znth h lo)); inversion X; cbn [plain op_neg]; try exact NC_type.
      unfold chk32. destruct (in_i32 (- z)) eqn:I3; cbn [bind]; [exact Logic.I|]. eauto.
    Qed.
    Lemma bin_ok i f : at_ins q a (I0 i) -> do_ins abs_ops q i = mbind (pop_v abs_ops) (fun r => mbind (pop_v abs_ops) (fun l => finish_op abs_ops (f (plain l) (plain r)))) ->
      binop i = Some f -> 2 <= zlen stk -> shape q (a + 1) (zlen stk - 1) frs -> good s0 (do_ins abs_ops q i (St (a + 1) stk)).
    Proof.
      intros At D B L X. rewrite D. destruct (stack_top stk) as (r & st1 & E1); [lia|]. rewrite E1, zlen_cons in L.
      destruct (stack_top st1) as (l & st & E2); [lia|]. subst st1. rewrite E1.
      assert (Or : val_ok q (zlen h) r) by (rewrite E1 in Hs; now inversion Hs).
      assert (Ol : val_ok q (zlen h) l) by (rewrite E1 in Hs; inversion Hs; now inversion H2).
      assert (F : Forall (val_ok q (zlen h)) st) by (rewrite E1 in Hs; inversion Hs; now inversion H2).
      destruct (view_ok r Or) as (y & Y). destruct (view_ok l Ol) as (x & Xx).
      rewrite <- E1. change (good s0 (mbind (pop_v abs_ops) (fun r => mbind (pop_v abs_ops) (fun l => finish_op abs_ops (f (plain l) (plain r)))) (St (a + 1) stk))).
      rewrite E1 at 2. apply (G_popv r y); [exact Y|]. apply (G_popv l x); [exact Xx|].
      pose proof (binop_out i f h l r x y B Xx Y) as O. unfold finish_op, mbind at 1, lift. destruct (f (plain x) (plain y)) as [[c|e]|e ln|[]]; try contradiction.
      - apply G_push_s; [exact F|now apply simple_ok|]. eapply shape_at; [exact X|]. rewrite E1, !zlen_cons. lia.
      - apply G_raise; assumption.
      - destruct O as (-> & O). eapply crash_text; [exact At|exact E1|exact O].
      - destruct O as (z1 & z2 & z & -> & -> & O1 & O2). eapply crash_overflow; [exact At|exact E1|exact O1|exact O2].
    Qed.

    Lemma pop1 l : Forall (val_ok q (zlen h)) l -> 1 <= zlen l ->
      exists v r x, l = v :: r /\ abs_view h v = Ok x /\ val_ok q (zlen h) v /\ Forall (val_ok q (zlen h)) r /\ zlen r = zlen l - 1.
    Proof.
      intros F L. destruct (stack_top l L) as (v & r & ->). assert (O : val_ok q (zlen h) v) by now inversion F. destruct (view_ok v O) as (x & X).
      exists v, r, x. rewrite zlen_cons. repeat (split; [first [reflexivity|assumption|now inversion F]|]). lia.
    Qed.
    Lemma un_ok i f : at_ins q a (I0 i) -> do_ins abs_ops q i = mbind (pop_v abs_ops) (fun r => finish_op abs_ops (f (plain r))) ->
      unop i = Some f -> 1 <= zlen stk -> shape q (a + 1) (zlen stk) frs -> good s0 (do_ins abs_ops q i (St (a + 1) stk)).
    Proof.
      intros At D B L X. rewrite D. destruct (pop1 stk Hs L) as (v & r & x & E & Xv & O & F & Lr).
      replace (St (a + 1) stk) with (St (a + 1) (v :: r)) by (rewrite E; reflexivity). apply (G_popv v x); [exact Xv|].
      pose proof (unop_out i f v x B Xv) as U. unfold finish_op, mbind at 1, lift. destruct (f (plain x)) as [[c|e]|e ln|y]; try contradiction.
      - apply G_push_s; [exact F|now apply simple_ok|]. eapply shape_at; [exact X|]. lia.
      - apply G_raise; assumption.
      - destruct U as (-> & -> & z & -> & I3). eapply crash_negate; [exact At|exact E|exact I3].
    Qed.
    Lemma get_ok l i v : Forall (val_ok q (zlen h)) l -> stk_get l i = Some v -> val_ok q (zlen h) v.
    Proof. unfold stk_get. intros F. destruct (_ && _); [|discriminate]. intros E. apply znth_In in E. rewrite Forall_forall in F. auto. Qed.
    Lemma nth_ok l i v : Forall (val_ok q (zlen h)) l -> znth l i = Some v -> val_ok q (zlen h) v.
    Proof. intros F E. apply znth_In in E. rewrite Forall_forall in F. auto. Qed.
    Lemma calls_ok fn n k p l : bound_to q k fn -> reads fn n -> n <= zlen l -> Forall (val_ok q (zlen h)) l -> shape q p (zlen l - n + 1) frs ->
      calling q s0 fn n l -> good s0 (do_syscall abs_ops q k n (St p l)).
    Proof. intros (nm & B) R L F X C. unfold do_syscall. rewrite B. now apply sys_ok. Qed.

    Lemma leave_ok fr rest v l p : frs = fr :: rest -> Forall (val_ok q (zlen h)) (v :: l) -> (rest <> [] -> shape q (fr_ret fr) (zlen l + 1) rest) ->
      good s0 (mbind leave (fun pc => mod_cur (fun t => t_set_pc t pc)) (St p (v :: l))).
    Proof.
      intros E F X. unfold mbind at 1. unfold leave, mbind at 1, mget. change (t_frs (m_cur (St p (v :: l)))) with frs. rewrite E.
      assert (Zl : 0 <? zlen (v :: l) = true) by (rewrite zlen_cons; pose proof (zlen_nonneg l); lia).
      destruct (fr_term fr || match rest with [] => true | _ :: _ => false end) eqn:T.
      - unfold mbind, mod_cur, head, mget, lift, assert_, ret.
        change (t_stk (m_cur (Mst (m_heap (St p (v :: l))) (m_glob (St p (v :: l))) (m_world (St p (v :: l))) (m_pre (St p (v :: l)))
          (t_set_frs (t_set_fin (m_cur (St p (v :: l))) true) rest) (m_post (St p (v :: l)))))) with (v :: l). rewrite Zl.
        apply ok_same. apply th_done; [exact F|discriminate].
      - apply orb_false_iff in T. destruct T as [_ T]. apply ok_same. apply th_next; [exact F|].
        change (shape q (fr_ret fr) (zlen (v :: l)) rest). rewrite zlen_cons. apply X. intros ->. discriminate.
    Qed.
    Ltac nc := unfold confused; intuition discriminate.
    Ltac view_of E v x := destruct v as [|[]|lo]; cbn [abs_view] in E; try (destruct (znth h lo) eqn:?Lo); inversion E; subst x; clear E.

    Lemma ins_ok : exists x, at_ins q a x /\ (misuse q s0 \/ good s0 (do_ins abs_ops q (ins_op x) (St (a + 1) stk))).
    Proof.
      destruct (at_hand _ _ _ Sh) as (x & fr & rest & f & size & At & Ef & Inf & Sta & Lta & Op & Sz & Na & Po & Sp & Re & Fo & Rest).
      exists x. split; [exact At|]. destruct x as [i|i o|i o1 o2].
      - assert (Nx : shape q (a + 1) (zlen stk - pops (I0 i) + pushes (I0 i)) frs).
        { destruct At as (_ & _ & W & _). cbn [ins_wf] in W. apply Fo. left. split; [reflexivity|]. unfold ins_len. cbn [ins_op]. rewrite W. lia. }
        pose proof At as (_ & _ & W & _). right.
        destruct i; try discriminate W; clear W; cbn [pops pushes] in *; cbn [ins_op];
          try (eapply bin_ok; [exact At|reflexivity|reflexivity|exact Po|eapply shape_at; [exact Nx|lia]]).
        + eapply un_ok; [exact At|reflexivity|reflexivity|exact Po|eapply shape_at; [exact Nx|lia]].
        + eapply un_ok; [exact At|reflexivity|reflexivity|exact Po|eapply shape_at; [exact Nx|lia]].
        + (* none *) apply G_push; [exact Hs|exact Logic.I|eapply shape_at; [exact Nx|lia]].
        + (* deref *) destruct (pop1 stk Hs) as (v & r & x & E & X & O & F & L); [lia|]. destruct (pop1 r F) as (v' & r' & x' & E' & X' & O' & F' & L'); [lia|].
          replace (St (a + 1) stk) with (St (a + 1) (v :: v' :: r')) by (rewrite E, E'; reflexivity). cbn [do_ins].
          apply (G_popv v x); [exact X|]. apply G_pop.
          assert (N1 : shape q (a + 1) (zlen r' + 1) frs) by (eapply shape_at; [exact Nx|lia]).
          destruct x as [|c|l].
          * apply G_raise; [nc|exact F'].
          * apply (G_deref v' x'); [reflexivity|exact X'|]. destruct x' as [|[k| | | |]|]; try (apply G_raise; [nc|exact F']).
            destruct c; try (apply G_raise; [nc|exact F']). destruct (znth s k); [|apply G_raise; [nc|exact F']]. apply G_push_s; [exact F'|exact Logic.I|exact N1].
          * apply (G_deref v' x'); [reflexivity|exact X'|]. destruct x' as [|[k| | | |]|]; try (apply G_raise; [nc|exact F']).
            destruct (znth l k) as [y|] eqn:Lk; [|apply G_raise; [nc|exact F']]. apply G_push; [exact F'| |exact N1].
            destruct v as [|c|lo]; cbn [abs_view] in X; try discriminate. destruct (znth h lo) as [l'|] eqn:Lo; inversion X; subst l'.
            eapply nth_ok; [|exact Lk]. eapply heap_get; eassumption.
        + (* seta *) destruct (pop1 stk Hs) as (v & r & x & E & X & O & F & L); [lia|]. destruct (pop1 r F) as (v' & r' & x' & E' & X' & O' & F' & L'); [lia|].
          destruct (pop1 r' F') as (u & r2 & y & E2 & Y & U & F2 & L2); [lia|].
          replace (St (a + 1) stk) with (St (a + 1) (v :: v' :: u :: r2)) by (rewrite E, E', E2; reflexivity). cbn [do_ins].
          do 3 apply G_pop. assert (N1 : shape q (a + 1) (zlen r2) frs) by (eapply shape_at; [exact Nx|lia]).
          apply (G_deref v x); [reflexivity|exact X|]. destruct x as [|c|l]; try (apply G_raise; [nc|exact F2]).
          apply (G_deref v' x'); [reflexivity|exact X'|]. destruct x' as [|[k| | | |]|]; try (apply G_raise; [nc|exact F2]).
          destruct ((0 <=? k) && (k <? zlen l)) eqn:Rk; [|apply G_raise; [nc|exact F2]].
          apply (G_deref u y); [reflexivity|exact Y|].
          destruct v as [|c|lo]; cbn [abs_view] in X; try discriminate. destruct (znth h lo) as [l'|] eqn:Lo; inversion X; subst l'.
          assert (G : good s0 (mbind (ret u) (fun q1 => mbind (mget m_heap) (fun hh => mbind (lift (h_set abs_ops hh (AArr lo) k q1)) (fun h' => set_heap h'))) (St (a + 1) r2))).
          { unfold mbind, ret, mget, lift. cbn [St m_heap abs_ops h_set abs_set]. rewrite Lo, Rk. apply ok_gen.
            - rewrite zlen_zupd. apply Z.le_refl.
            - now apply heap_set.
            - rewrite zlen_zupd. exact Hg.
            - rewrite zlen_zupd. exact Hpre.
            - rewrite zlen_zupd. apply th_next; [exact F2|exact N1]. }
          destruct u as [|c|lo2]; cbn [abs_view] in Y; try (destruct (znth h lo2)); inversion Y; subst y; exact G.
      - pose proof At as (_ & _ & W & _). cbn [ins_wf] in W. destruct W as [W Io].
        assert (Nx : falls (I1 i o) = true -> shape q (a + 5) (zlen stk - pops (I1 i o) + pushes (I1 i o)) frs).
        { intros Fa. apply Fo. left. split; [exact Fa|]. unfold ins_len. cbn [ins_op]. rewrite W. lia. }
        assert (Jx : forall b, jump_target (I1 i o) = Some b -> shape q b (zlen stk - pops (I1 i o) + pushes (I1 i o)) frs) by (intros b Jb; apply Fo; right; exact Jb).
        destruct i; try discriminate W; clear W; cbn [pops pushes falls jump_target operand_ok] in *; cbn [ins_op]; try (specialize (Nx eq_refl)).
        + (* jmp *) right. apply (G_op _ _ _ _ At). apply G_jump; [exact Hs|]. eapply shape_at; [apply (Jx o eq_refl)|lia].
        + (* tjmp *) right. apply (G_op _ _ _ _ At). destruct (pop1 stk Hs) as (v & r & x & E & X & O & F & L); [lia|].
          replace (St (a + 5) stk) with (St (a + 5) (v :: r)) by (rewrite E; reflexivity). apply (G_popv v x); [exact X|].
          destruct (as_bool (plain x)); [apply G_jump; [exact F|]; eapply shape_at; [apply (Jx o eq_refl)|lia]|apply G_stay; [exact F|eapply shape_at; [exact Nx|lia]]].
        + (* fjmp *) right. apply (G_op _ _ _ _ At). destruct (pop1 stk Hs) as (v & r & x & E & X & O & F & L); [lia|].
          replace (St (a + 5) stk) with (St (a + 5) (v :: r)) by (rewrite E; reflexivity). apply (G_popv v x); [exact X|].
          destruct (as_bool (plain x)); [apply G_stay; [exact F|eapply shape_at; [exact Nx|lia]]|apply G_jump; [exact F|]; eapply shape_at; [apply (Jx o eq_refl)|lia]].
        + (* ret *) right. apply (G_op _ _ _ _ At). destruct (pop1 stk Hs) as (v & r & x & E & X & O & F & L); [lia|].
          replace (St (a + 5) stk) with (St (a + 5) (v :: r)) by (rewrite E; reflexivity). apply G_pop.
          pose proof (Re o eq_refl) as Hn. pose proof (nargs_nonneg f) as Nn.
          unfold mbind at 1, head, mget. change (zlen (t_stk (m_cur (St (a + 5) r)))) with (zlen r).
          replace (zlen r <? o) with false by lia. replace (o <? 0) with false by lia.
          assert (Lz : zlen (zskipn o r) = fr_sp fr - num_args f) by (rewrite zlen_zskipn; lia).
          assert (Fz : Forall (val_ok q (zlen h)) (v :: zskipn o r)) by (constructor; [exact O|now apply Forall_zskipn]).
          change (good s0 (mbind leave (fun pc => mod_cur (fun t => t_set_pc t pc)) (St (a + 5) (v :: zskipn o r)))).
          apply (leave_ok fr rest); [exact Ef|exact Fz|]. intros N. rewrite Lz. destruct rest; [congruence|exact Rest].
        + (* icall *) destruct (pop1 stk Hs) as (v & r & x & E & X & O & F & L); [lia|].
          assert (N1 : shape q (a + 5) (zlen r - o + 1) frs) by (eapply shape_at; [exact Nx|lia]).
          assert (Gd : misuse q s0 \/ good s0 (match x with
            | WNone => lift (Stuck SAssert)
            | WS (SSys n) => do_syscall abs_ops q n o
            | WS (SFun b) =>
                match function_find_pc q b with
                | None => lift (Stuck SAssert)
                | Some f =>
                    mbind (if num_args f =? o then ret tt else raise e_bad_num_args) (fun _ =>
                    mbind head (fun sp => mbind (mget (fun s => t_pc (m_cur s))) (fun pc =>
                    enter sp pc b)))
                end
            | _ => raise e_bad_type_operation
            end (St (a + 5) r))).
          { destruct v as [|c|lo]; cbn [abs_view] in X; [inversion X; subst x|inversion X; subst x; destruct c as [|x0|sx|b|k]|destruct (znth h lo); [|discriminate]; inversion X; subst x];
              try (right; apply G_raise; [nc|exact F]).
            - right. eapply crash_call_none; [exact At|exact E].
            - right. cbn [val_ok] in O. destruct O as (f' & Fa). rewrite (find_start _ _ Fa). destruct (num_args f' =? o) eqn:Nq.
              + apply ok_same. unfold t_set_pc, t_set_frs. apply th_next; [exact F|].
                change (shape q b (zlen r) (Frame (zlen r) (a + 5) b false :: frs)). apply (enters b f'); [exact Fa|lia|rewrite Ef; discriminate|].
                eapply shape_at; [exact N1|lia].
              + apply ok_same. unfold t_set_pc, t_set_frs. apply th_raise; [exact F|nc].
            - cbn [val_ok] in O. destruct O as (_ & fn & B). destruct (reads_dec fn o) as [R|R].
              + right. apply (calls_ok fn); [exact B|exact R|lia|exact F|exact N1|]. right. exists k. auto.
              + left. exists o, k, fn, r. auto. }
          destruct Gd as [Gd|Gd]; [now left|right]. apply (G_op _ _ _ _ At).
          replace (St (a + 5) stk) with (St (a + 5) (v :: r)) by (rewrite E; reflexivity). apply (G_popv v x); [exact X|]. exact Gd.
        + (* pop *) right. apply (G_op _ _ _ _ At). assert (Ln : (Z.to_nat o <= List.length stk)%nat) by (unfold zlen in Po; lia).
          unfold mbind. rewrite pop_n_St by exact Ln. apply G_stay.
          * rewrite <- (firstn_skipn (Z.to_nat o) stk) in Hs. apply Forall_app in Hs. apply Hs.
          * eapply shape_at; [exact Nx|]. unfold zlen. rewrite skipn_length. lia.
        + (* new_int *) right. apply (G_op _ _ _ _ At). apply G_push_s; [exact Hs|exact Logic.I|eapply shape_at; [exact Nx|lia]].
        + (* new_str *) right. apply (G_op _ _ _ _ At). destruct (znth_in (p_strings q) o Op) as (sx & Sx).
          unfold mbind at 1, lift, assert_. replace (o <? zlen (p_strings q)) with true by lia. rewrite Sx.
          apply G_push_s; [exact Hs|exact Logic.I|eapply shape_at; [exact Nx|lia]].
        + (* new_ary *) right. apply (G_op _ _ _ _ At). unfold mbind at 1, lift, assert_. replace (0 <? o) with true by lia.
          apply G_new; [exact Hs|apply Forall_zrepeat; exact Logic.I|eapply shape_at; [exact Nx|lia]].
        + (* new_flt *) right. apply (G_op _ _ _ _ At). apply G_push_s; [exact Hs|exact Logic.I|eapply shape_at; [exact Nx|lia]].
        + (* new_func *) right. apply (G_op _ _ _ _ At). destruct Op as (f' & Fa). pose proof (ve_range _ V _ (proj1 Fa)) as Rg. pose proof (proj2 Fa) as Ea.
          unfold mbind at 1, lift, assert_. replace (0 <=? o) with true by lia. apply G_push_s; [exact Hs|exists f'; exact Fa|eapply shape_at; [exact Nx|lia]].
        + (* new_scall *) right. apply (G_op _ _ _ _ At). destruct Op as (fn & B). pose proof B as (nm & B'). apply znth_some in B'.
          unfold mbind at 1, lift, assert_. replace (0 <=? o) with true by lia. apply G_push_s; [exact Hs| |eapply shape_at; [exact Nx|lia]].
          cbn [val_ok]. split; [|exists fn; exact B]. exists f, a, o. auto.
        + (* locals *) right. apply (G_op _ _ _ _ At). replace (o <? 0) with false by lia. apply ok_same. apply th_next.
          * apply Forall_app. split; [apply Forall_zrepeat; exact Logic.I|exact Hs].
          * rewrite zlen_app, zlen_zrepeat. change (shape q (a + 5) (Z.max 0 o + zlen stk) frs). eapply shape_at; [exact Nx|lia].
        + (* globals *) right. apply (G_op _ _ _ _ At). assert (N1 : shape q (a + 5) (zlen stk) frs) by (eapply shape_at; [exact Nx|lia]).
          destruct (o =? 0); [now apply G_stay|]. replace (o <? 0) with false by lia.
          apply ok_gen; [apply Z.le_refl|exact Hh|apply Forall_zrepeat; exact Logic.I|exact Hpre|]. apply th_next; [exact Hs|exact N1].
        + (* getv *) right. apply (G_op _ _ _ _ At). unfold mbind at 1, mget. change (t_frs (m_cur (St (a + 5) stk))) with frs. rewrite Ef.
          unfold mbind at 1, lift, chk32. destruct (in_i32 (fr_sp fr + o)) eqn:I3.
          * unfold mbind at 1, mget. change (t_stk (m_cur (St (a + 5) stk))) with stk. destruct (stk_get stk (fr_sp fr + o)) as [v|] eqn:Gv.
            -- apply G_push; [exact Hs|eapply get_ok; eassumption|eapply shape_at; [exact Nx|lia]].
            -- apply G_raise_push; [nc|exact Hs|exact Logic.I].
          * eapply crash_far; [exact At|left; reflexivity|exact Ef|]. unfold in_i32, i32_min, i32_max in *. lia.
        + (* setv *) right. apply (G_op _ _ _ _ At). destruct (pop1 stk Hs) as (v & r & x & E & X & O & F & L); [lia|].
          replace (St (a + 5) stk) with (St (a + 5) (v :: r)) by (rewrite E; reflexivity). apply G_pop.
          unfold mbind at 1, mget. change (t_frs (m_cur (St (a + 5) r))) with frs. rewrite Ef.
          unfold mbind at 1, lift, chk32. destruct (in_i32 (fr_sp fr + o)) eqn:I3.
          * unfold mbind at 1, mget. change (t_stk (m_cur (St (a + 5) r))) with r. destruct (stk_get r (fr_sp fr + o)) as [u|] eqn:Gv.
            -- apply ok_same. apply th_next; [now apply Forall_zupd|]. unfold stk_set. rewrite zlen_zupd. change (shape q (a + 5) (zlen r) frs).
               eapply shape_at; [exact Nx|lia].
            -- apply G_raise; [nc|exact F].
          * eapply crash_far; [exact At|right; reflexivity|exact Ef|]. unfold in_i32, i32_min, i32_max in *. lia.
        + (* getg *) right. apply (G_op _ _ _ _ At). unfold mbind at 1, mget. change (m_glob (St (a + 5) stk)) with g. destruct (znth g o) as [v|] eqn:Gv.
          * apply G_push; [exact Hs|exact (nth_ok g o v Hg Gv)|eapply shape_at; [exact Nx|lia]].
          * apply G_raise; [nc|exact Hs].
        + (* setg *) right. apply (G_op _ _ _ _ At). destruct (pop1 stk Hs) as (v & r & x & E & X & O & F & L); [lia|].
          unfold mbind at 1, mget. change (m_glob (St (a + 5) stk)) with g. destruct (znth g o) as [u|] eqn:Gv; [|apply G_raise; [nc|exact Hs]].
          replace (St (a + 5) stk) with (St (a + 5) (v :: r)) by (rewrite E; reflexivity). apply G_pop.
          apply ok_gen; [apply Z.le_refl|exact Hh|now apply Forall_zupd|exact Hpre|]. apply th_next; [exact F|]. 
          change (shape q (a + 5) (zlen r) frs). eapply shape_at; [exact Nx|lia].
        + (* getm *) right. destruct (pop1 stk Hs) as (v & r & x & E & X & O & F & L); [lia|].
          replace (St (a + 1) stk) with (St (a + 1) (v :: r)) by (rewrite E; reflexivity). apply (G_popv v x); [exact X|]. apply (G_op _ _ _ _ At).
          destruct (znth_in (p_strings q) o Op) as (sx & Sx). rewrite Sx. destruct x as [| |l]; try (apply G_raise; [nc|exact F]).
          destruct (bytes_eqb sx _); [|apply G_raise; [nc|exact F]]. apply G_push_s; [exact F|exact Logic.I|eapply shape_at; [exact Nx|lia]].
        + (* setm *) right. destruct (pop1 stk Hs) as (v & r & x & E & X & O & F & L); [lia|]. destruct (pop1 r F) as (v' & r' & x' & E' & X' & O' & F' & L'); [lia|].
          replace (St (a + 1) stk) with (St (a + 1) (v :: v' :: r')) by (rewrite E, E'; reflexivity). do 2 apply G_pop. apply (G_op _ _ _ _ At).
          destruct (znth_in (p_strings q) o Op) as (sx & Sx). rewrite Sx. apply G_raise; [nc|exact F'].
        + (* ary_init *) right. apply (G_op _ _ _ _ At). unfold mbind at 1, lift, assert_. replace (0 <? o) with true by lia.
          assert (Ln : (Z.to_nat o <= List.length stk)%nat) by (unfold zlen in Po; lia). unfold mbind at 1. rewrite pop_n_St by exact Ln.
          rewrite <- (firstn_skipn (Z.to_nat o) stk) in Hs. apply Forall_app in Hs. destruct Hs as [F1 F2].
          apply G_new; [exact F2|now apply Forall_rev|]. eapply shape_at; [exact Nx|]. unfold zlen. rewrite skipn_length. lia.
      - right. pose proof At as (_ & _ & W & _). cbn [ins_wf] in W. destruct W as [W _].
        assert (Nx : shape q (a + 9) (zlen stk - o1 + 1) frs).
        { eapply shape_at; [apply Fo; left; split; [reflexivity|]|cbn [pops pushes]; lia]. unfold ins_len. cbn [ins_op]. rewrite W. lia. }
        destruct i; try discriminate W; clear W; cbn [pops pushes operand_ok] in *; cbn [ins_op].
        + (* call *) apply (G_op2 _ _ _ _ _ At). destruct Op as (f' & Fa & Eq). apply ok_same. unfold t_set_pc, t_set_frs. apply th_next; [exact Hs|].
          change (shape q o2 (zlen stk) (Frame (zlen stk) (a + 9) o2 false :: frs)). apply (enters o2 f'); [exact Fa|lia|rewrite Ef; discriminate|].
          eapply shape_at; [exact Nx|lia].
        + (* scall *) destruct Op as (fn & B & R). apply (G_op2 _ _ _ _ _ At). apply (calls_ok fn); [exact B|exact R|exact Po|exact Hs|exact Nx|].
          left. exists o2. auto.
    Qed.
  End State.
End Safe.

(** One step: a disciplined program that is running keeps running sensibly, stops
    with an error that makes sense, or crashes for one of the listed reasons. *)
Lemma step_safe q s : verified q -> vm_ok q (join s) -> t_fin (m_cur s) = false ->
  misuse q s \/
  match step_imp abs_ops q s with
  | Ok (_, s') => vm_ok q (join s')
  | Err _ _ => False
  | Stuck x => crash q s x
  end.
Proof.
  intros V O N. apply join_ok in O. destruct s as [h g w pre [p stk frs err fin hal cyc wts last bps] post].
  cbn [m_heap m_glob m_pre m_cur m_post] in O. destruct O as (Hh & Hg & Hpre & Ht & Hpost). cbn [m_cur t_fin] in N. subst fin.
  destruct Ht as [T1 T2 _ _]. cbn [t_stk t_fin t_err t_pc t_frs] in *. destruct (T2 eq_refl) as [-> Sh].
  destruct (ins_ok q V h g w pre post p stk frs hal cyc wts last bps Hh Hg Hpre Hpost T1 Sh) as (x & At & [M|G]); [left; exact M|right].
  match goal with |- context [step_imp abs_ops q ?s] => rewrite (step_at abs_ops q s x At) end. unfold mbind.
  change (with_cur _ _) with (St h g w pre post frs hal cyc wts last bps (p + 1) stk). unfold good in G.
  destruct (do_ins _ _ _ _) as [[u s']|e l|y]; [|contradiction|exact G].
  destruct (finish_core q s') as (s2 & E & C). rewrite E. eapply core_ok; [symmetry; exact C|exact G].
Qed.
