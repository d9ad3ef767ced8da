(** Proofs about the program object and its image format. *)
From Coq Require Import ZArith List Bool Lia Sorted ZifyBool.
From Verif Require Import Base BaseFacts Instr InstrProofs Program ProgramSpec.
Import ListNotations.
Open Scope Z_scope.

(** ** Readers *)
Definition reads {A} (r : rd A) (x : bytes) (v : A) : Prop :=
  forall rest, r (x ++ rest) = Ok (Some v, rest).
Definition cuts {A} (r : rd A) (x : bytes) : Prop :=
  forall p q, x = p ++ q -> q <> [] -> r p = Ok (None, []).
Definition wcuts {A} (r : rd A) (x : bytes) : Prop :=
  forall p q, x = p ++ q -> q <> [] -> exists o, r p = Ok (o, []).

Lemma cuts_wcuts : forall {A} (r : rd A) x, cuts r x -> wcuts r x.
Proof. intros A r x H p q E N. exists None. eapply H; eauto. Qed.

Lemma fread_app : forall x rest, fread (zlen x) (x ++ rest) = (Some x, rest).
Proof.
  intros. unfold fread. rewrite zlen_app. pose proof (zlen_nonneg rest).
  destruct (zlen x <=? zlen x + zlen rest) eqn:E; [|lia].
  now rewrite zfirstn_app, zskipn_app.
Qed.
Lemma fread_cut : forall n p, zlen p < n -> fread n p = (None, []).
Proof. intros. unfold fread. destruct (n <=? zlen p) eqn:E; auto; lia. Qed.

Lemma strict_prefix_len : forall (x p q : bytes), x = p ++ q -> q <> [] -> zlen p < zlen x.
Proof.
  intros x p q -> N. rewrite zlen_app. destruct q as [|c q]; [congruence|].
  rewrite zlen_cons. pose proof (zlen_nonneg q). lia.
Qed.

Lemma app_split : forall (x y p q : bytes), x ++ y = p ++ q ->
  (exists p2, p = x ++ p2 /\ y = p2 ++ q) \/
  (exists q2, x = p ++ q2 /\ q2 <> [] /\ q = q2 ++ y).
Proof.
  induction x as [|c x IH]; intros y p q H.
  - left. exists p. auto.
  - destruct p as [|d p].
    + right. exists (c :: x). repeat split; auto. discriminate.
    + simpl in H. injection H as -> H. destruct (IH _ _ _ H) as [(p2 & -> & ->)|(q2 & -> & N & ->)].
      * left. exists p2. auto.
      * right. exists q2. auto.
Qed.

Lemma reads_bind : forall {A B} (r : rd A) (k : A -> rd B) x y a b,
  reads r x a -> reads (k a) y b -> reads (c_bind r k) (x ++ y) b.
Proof.
  intros A B r k x y a b R K rest. unfold c_bind.
  rewrite <- app_assoc, R. cbn [bind]. apply K.
Qed.
Lemma cuts_bind : forall {A B} (r : rd A) (k : A -> rd B) x y a,
  reads r x a -> cuts r x -> cuts (k a) y -> cuts (c_bind r k) (x ++ y).
Proof.
  intros A B r k x y a R C K p q E N. unfold c_bind.
  destruct (app_split _ _ _ _ E) as [(p2 & -> & ->)|(q2 & -> & N2 & ->)].
  - rewrite R. cbn [bind]. eapply K; eauto.
  - rewrite (C p q2); auto.
Qed.
Lemma reads_ret : forall {A} (a : A), reads (c_ret a) [] a.
Proof. intros A a rest. reflexivity. Qed.
Lemma cuts_nil : forall {A} (r : rd A), cuts r [].
Proof. intros A r p q E N. symmetry in E. apply app_eq_nil in E as [_ E]. tauto. Qed.

(** A reader followed by [c_ret]. *)
Lemma reads_map : forall {A B} (r : rd A) (f : A -> B) x a,
  reads r x a -> reads (c_bind r (fun a => c_ret (f a))) x (f a).
Proof.
  intros A B r f x a R. rewrite <- (app_nil_r x). eapply reads_bind; eauto.
  apply reads_ret.
Qed.
Lemma cuts_map : forall {A B} (r : rd A) (f : A -> B) x a,
  reads r x a -> cuts r x -> cuts (c_bind r (fun a => c_ret (f a))) x.
Proof.
  intros A B r f x a R C. rewrite <- (app_nil_r x). eapply cuts_bind; eauto.
  apply cuts_nil.
Qed.

Lemma c_int_reads : forall z, in_i32 z = true -> reads c_int (le32 z) z.
Proof.
  intros z H rest. unfold c_int.
  change 4 with (zlen (le32 z)). rewrite fread_app.
  pose proof (rd32_le32 z rest) as R. unfold le32 in R |- *. cbn [app rd32] in R.
  injection R as R. rewrite R. now rewrite to_i32_id.
Qed.
Lemma c_int_cuts : forall z, cuts c_int (le32 z).
Proof.
  intros z p q E N. unfold c_int.
  rewrite fread_cut; auto. apply strict_prefix_len in E; auto.
Qed.
Lemma c_int_nil : c_int [] = Ok (None, []).
Proof. reflexivity. Qed.

Lemma cstr_id : forall s, Forall (fun c => 0 < c < 256) s -> cstr s = s.
Proof.
  induction s as [|c s IH]; intros H; simpl; auto. inversion H; subst.
  destruct (c =? 0) eqn:E; [lia|]. now rewrite IH.
Qed.

Lemma str_len_i32 : forall s : bytes, zlen s < 256 -> in_i32 (zlen s) = true.
Proof. intros s H. pose proof (zlen_nonneg s). unfold in_i32, i32_min, i32_max. lia. Qed.

Lemma c_str_reads : forall s, str_wf s -> reads c_str (w_str s) s.
Proof.
  intros s [L W] rest. unfold c_str, w_str. rewrite <- app_assoc.
  rewrite c_int_reads by now apply str_len_i32. cbn [bind].
  unfold assert_. destruct (zlen s <? 256) eqn:E; [|lia]. cbn [bind].
  pose proof (zlen_nonneg s). destruct (zlen s <? 0) eqn:E2; [lia|].
  rewrite fread_app, cstr_id by auto. reflexivity.
Qed.
Lemma c_str_cuts : forall s, str_wf s -> cuts c_str (w_str s).
Proof.
  intros s [L W] p q E N. unfold c_str, w_str in *.
  destruct (app_split _ _ _ _ E) as [(p2 & -> & Es)|(q2 & Ex & N2 & ->)].
  - rewrite c_int_reads by now apply str_len_i32. cbn [bind].
    unfold assert_. destruct (zlen s <? 256) eqn:EE; [|lia]. cbn [bind].
    pose proof (zlen_nonneg s). destruct (zlen s <? 0) eqn:E2; [lia|].
    rewrite fread_cut; auto. apply strict_prefix_len in Es; auto.
  - rewrite (c_int_cuts _ _ _ Ex N2). reflexivity.
Qed.

Lemma count_i32 : forall {A} (l : list A), count_ok l -> in_i32 (zlen l) = true.
Proof.
  unfold count_ok. intros A l H. pose proof (zlen_nonneg l).
  unfold in_i32, i32_min, i32_max in *. lia.
Qed.
Lemma zlen_to_nat : forall {A} (l : list A), Z.to_nat (zlen l) = length l.
Proof. intros; unfold zlen. apply Nat2Z.id. Qed.

Lemma c_times_reads : forall {A} (w : A -> bytes) (r : rd A) l,
  Forall (fun a => reads r (w a) a) l ->
  reads (c_times (length l) r) (flat_map w l) l.
Proof.
  induction l as [|a l IH]; intros H; cbn [length c_times flat_map].
  - apply reads_ret.
  - inversion H; subst. eapply reads_bind; eauto. now apply reads_map, IH.
Qed.
Lemma c_times_cuts : forall {A} (w : A -> bytes) (r : rd A) l,
  Forall (fun a => reads r (w a) a) l -> Forall (fun a => cuts r (w a)) l ->
  cuts (c_times (length l) r) (flat_map w l).
Proof.
  induction l as [|a l IH]; intros H C; cbn [length c_times flat_map].
  - apply cuts_nil.
  - inversion H; inversion C; subst. eapply cuts_bind; eauto.
    eapply cuts_map; eauto. now apply c_times_reads.
Qed.
Lemma c_list_reads : forall {A} (w : A -> bytes) (r : rd A) l,
  count_ok l -> Forall (fun a => reads r (w a) a) l -> reads (c_list r) (w_list w l) l.
Proof.
  intros A w r l L H. unfold c_list, w_list. eapply reads_bind.
  - apply c_int_reads, count_i32, L.
  - cbn beta. rewrite zlen_to_nat. now apply c_times_reads.
Qed.
Lemma c_list_cuts : forall {A} (w : A -> bytes) (r : rd A) l,
  count_ok l -> Forall (fun a => reads r (w a) a) l -> Forall (fun a => cuts r (w a)) l ->
  cuts (c_list r) (w_list w l).
Proof.
  intros A w r l L H C. unfold c_list, w_list. eapply cuts_bind.
  - apply c_int_reads, count_i32, L.
  - apply c_int_cuts.
  - cbn beta. rewrite zlen_to_nat. now apply c_times_cuts.
Qed.
Lemma c_list_nil : forall {A} (r : rd A), c_list r [] = Ok (None, []).
Proof. reflexivity. Qed.

Lemma c_ident_reads : forall i, ident_wf i -> reads c_ident (w_ident i) i.
Proof.
  intros [n o] [S O]. unfold c_ident, w_ident. cbn [i_name i_offset f_name f_start f_end f_locals f_args fst snd l_file l_line] in *.
  eapply reads_bind; [now apply c_str_reads|].
  apply (reads_map c_int (fun o => Ident n o)). now apply c_int_reads.
Qed.
Lemma c_ident_cuts : forall i, ident_wf i -> cuts c_ident (w_ident i).
Proof.
  intros [n o] [S O]. unfold c_ident, w_ident. cbn [i_name i_offset f_name f_start f_end f_locals f_args fst snd l_file l_line] in *.
  eapply cuts_bind; [now apply c_str_reads|now apply c_str_cuts|].
  eapply (cuts_map c_int (fun o => Ident n o)); [now apply c_int_reads|apply c_int_cuts].
Qed.
Lemma idents_reads : forall l, Forall ident_wf l -> count_ok l ->
  reads (c_list c_ident) (w_list w_ident l) l.
Proof.
  intros l H L. apply c_list_reads; auto. eapply Forall_impl; [|exact H].
  apply c_ident_reads.
Qed.
Lemma idents_cuts : forall l, Forall ident_wf l -> count_ok l ->
  cuts (c_list c_ident) (w_list w_ident l).
Proof.
  intros l H L. apply c_list_cuts; auto; (eapply Forall_impl; [|exact H]).
  apply c_ident_reads. apply c_ident_cuts.
Qed.

Lemma c_func_reads : forall f, func_wf f -> reads c_func (w_func f) f.
Proof.
  intros [n s e ls ar] (S & I1 & I2 & L & R & CL & CR). unfold c_func, w_func. cbn [i_name i_offset f_name f_start f_end f_locals f_args fst snd l_file l_line] in *.
  eapply reads_bind; [now apply c_str_reads|].
  eapply reads_bind; [now apply c_int_reads|].
  eapply reads_bind; [now apply c_int_reads|].
  eapply reads_bind; [now apply idents_reads|].
  apply (reads_map (c_list c_ident) (fun ar => Func n s e ls ar)). now apply idents_reads.
Qed.
Lemma c_func_cuts : forall f, func_wf f -> cuts c_func (w_func f).
Proof.
  intros [n s e ls ar] (S & I1 & I2 & L & R & CL & CR). unfold c_func, w_func. cbn [i_name i_offset f_name f_start f_end f_locals f_args fst snd l_file l_line] in *.
  eapply cuts_bind; [now apply c_str_reads|now apply c_str_cuts|].
  eapply cuts_bind; [now apply c_int_reads|now apply c_int_cuts|].
  eapply cuts_bind; [now apply c_int_reads|now apply c_int_cuts|].
  eapply cuts_bind; [now apply idents_reads|now apply idents_cuts|].
  eapply (cuts_map (c_list c_ident) (fun ar => Func n s e ls ar));
    [now apply idents_reads|now apply idents_cuts].
Qed.

Lemma c_line_reads : forall x, line_wf x -> reads c_line (w_line x) x.
Proof.
  intros [pc [f l]] (A & B & C). unfold c_line, w_line. cbn [i_name i_offset f_name f_start f_end f_locals f_args fst snd l_file l_line] in *.
  eapply reads_bind; [now apply c_int_reads|].
  eapply reads_bind; [now apply c_int_reads|].
  apply (reads_map c_int (fun l => (pc, Line f l))). now apply c_int_reads.
Qed.
Lemma c_line_cuts : forall x, line_wf x -> cuts c_line (w_line x).
Proof.
  intros [pc [f l]] (A & B & C). unfold c_line, w_line. cbn [i_name i_offset f_name f_start f_end f_locals f_args fst snd l_file l_line] in *.
  eapply cuts_bind; [now apply c_int_reads|now apply c_int_cuts|].
  eapply cuts_bind; [now apply c_int_reads|now apply c_int_cuts|].
  eapply (cuts_map c_int (fun l => (pc, Line f l)));
    [now apply c_int_reads|now apply c_int_cuts].
Qed.

Definition unbind (s : syscall_t) : syscall_t := Sysc (s_name s) None.

Lemma c_sys_reads : forall s, str_wf (s_name s) -> reads c_sys (w_str (s_name s)) (unbind s).
Proof.
  intros s W rest. unfold c_sys. rewrite c_str_reads by auto. reflexivity.
Qed.
Lemma c_sys_cut : forall s, str_wf (s_name s) ->
  forall p q, w_str (s_name s) = p ++ q -> q <> [] -> c_sys p = Ok (Some (Sysc [] None), []).
Proof.
  intros s W p q E N. unfold c_sys. rewrite (c_str_cuts _ W _ _ E N). reflexivity.
Qed.
Lemma c_times_sys_nil : forall n, exists l, c_times n c_sys [] = Ok (Some l, []).
Proof.
  induction n as [|n [l IH]]; cbn [c_times].
  - exists []. reflexivity.
  - exists (Sysc [] None :: l). unfold c_bind.
    replace (c_sys []) with (Ok (Some (Sysc [] None), @nil Z)) by reflexivity.
    cbn [bind]. rewrite IH. reflexivity.
Qed.
Lemma c_times_sys_reads : forall l, Forall (fun s => str_wf (s_name s)) l ->
  reads (c_times (length l) c_sys) (flat_map (fun s => w_str (s_name s)) l) (map unbind l).
Proof.
  induction l as [|s l IH]; intros H; cbn [length c_times flat_map map].
  - apply reads_ret.
  - inversion H; subst. eapply reads_bind; [now apply c_sys_reads|].
    apply (reads_map (c_times (length l) c_sys) (fun t => unbind s :: t)). now apply IH.
Qed.
Lemma c_times_sys_wcuts : forall l, Forall (fun s => str_wf (s_name s)) l ->
  forall p q, flat_map (fun s => w_str (s_name s)) l = p ++ q -> q <> [] ->
  exists l', c_times (length l) c_sys p = Ok (Some l', []).
Proof.
  induction l as [|s l IH]; intros H p q E N; cbn [length c_times flat_map] in *.
  - symmetry in E. apply app_eq_nil in E as [_ E]. tauto.
  - inversion H; subst. unfold c_bind at 1.
    destruct (app_split _ _ _ _ E) as [(p2 & -> & E2)|(q2 & E2 & N2 & ->)].
    + rewrite c_sys_reads by auto. cbn [bind].
      destruct (IH ltac:(assumption) _ _ E2 N) as [l' R]. unfold c_bind. rewrite R. cbn [bind].
      eexists; reflexivity.
    + rewrite (c_sys_cut s ltac:(assumption) _ _ E2 N2). cbn [bind].
      destruct (c_times_sys_nil (length l)) as [l' R]. unfold c_bind. rewrite R. cbn [bind].
      eexists; reflexivity.
Qed.
Lemma sys_reads : forall l, Forall (fun s => str_wf (s_name s)) l -> count_ok l ->
  reads (c_list c_sys) (w_list (fun s => w_str (s_name s)) l) (map unbind l).
Proof.
  intros l H L. unfold c_list, w_list. eapply reads_bind.
  - apply c_int_reads, count_i32, L.
  - cbn beta. rewrite zlen_to_nat. now apply c_times_sys_reads.
Qed.
Lemma sys_wcuts : forall l, Forall (fun s => str_wf (s_name s)) l -> count_ok l ->
  wcuts (c_list c_sys) (w_list (fun s => w_str (s_name s)) l).
Proof.
  intros l H L p q E N. unfold c_list, w_list, c_bind in *.
  destruct (app_split _ _ _ _ E) as [(p2 & -> & E2)|(q2 & E2 & N2 & ->)].
  - rewrite c_int_reads by (apply count_i32; auto). cbn [bind]. rewrite zlen_to_nat.
    destruct (c_times_sys_wcuts l H _ _ E2 N) as [l' R]. eauto.
  - rewrite (c_int_cuts _ _ _ E2 N2). cbn [bind]. eauto.
Qed.

Lemma c_code_reads : forall c, count_ok c -> reads c_code (le32 (zlen c) ++ c) c.
Proof.
  intros c L. eapply reads_bind; [apply c_int_reads, count_i32, L|].
  intros rest. pose proof (zlen_nonneg c). destruct (zlen c <? 0) eqn:E; [lia|].
  now rewrite fread_app.
Qed.
Lemma c_code_cuts : forall c, count_ok c -> cuts c_code (le32 (zlen c) ++ c).
Proof.
  intros c L. eapply cuts_bind; [apply c_int_reads, count_i32, L|apply c_int_cuts|].
  intros p q E N. pose proof (zlen_nonneg c). destruct (zlen c <? 0) eqn:E2; [lia|].
  rewrite fread_cut; auto. apply strict_prefix_len in E; auto.
Qed.

(** ** Line table *)
Lemma lt_find_set_same : forall m k v, lt_find (lt_set m k v) k = Some v.
Proof.
  induction m as [|[k' v'] m IH]; intros k v; cbn.
  - now rewrite Z.eqb_refl.
  - destruct (k <? k') eqn:E; [cbn; now rewrite Z.eqb_refl|].
    destruct (k =? k') eqn:E2; cbn.
    + now rewrite Z.eqb_refl.
    + rewrite E2. apply IH.
Qed.
Lemma lt_find_set_other : forall m k k2 v, k <> k2 -> lt_find (lt_set m k v) k2 = lt_find m k2.
Proof.
  induction m as [|[k' v'] m IH]; intros k k2 v H; cbn.
  - destruct (k2 =? k) eqn:E; auto; lia.
  - destruct (k <? k') eqn:E; cbn.
    + destruct (k2 =? k) eqn:E2; auto; lia.
    + destruct (k =? k') eqn:E2; cbn.
      * destruct (k2 =? k) eqn:E3; destruct (k2 =? k') eqn:E4; auto; lia.
      * destruct (k2 =? k'); auto.
Qed.
Lemma lt_set_sorted : forall m k v, lines_sorted m -> lines_sorted (lt_set m k v).
Proof.
  unfold lines_sorted.
  induction m as [|[k' v'] m IH]; intros k v H; cbn.
  - constructor; constructor.
  - inversion H as [|? ? HS HF]; subst.
    destruct (k <? k') eqn:E; [|destruct (k =? k') eqn:E2].
    + constructor; auto. constructor; [cbn; lia|].
      eapply Forall_impl; [|exact HF]. cbn. intros; lia.
    + assert (k = k') by lia. subst. constructor; auto.
    + constructor; [now apply IH|].
      clear IH H HS. induction m as [|[k2 v2] m IHm]; cbn.
      * constructor; auto. cbn; lia.
      * inversion HF; subst. destruct (k <? k2); [|destruct (k =? k2)]; constructor; auto; cbn; try lia.
Qed.

(** Inserting in increasing key order appends. *)
Lemma lt_set_append : forall m k v, Forall (fun x => fst x < k) m -> lt_set m k v = m ++ [(k, v)].
Proof.
  induction m as [|[k' v'] m IH]; intros k v H; cbn; auto.
  inversion H; subst. cbn in *. destruct (k <? k') eqn:E; [lia|].
  destruct (k =? k') eqn:E2; [lia|]. now rewrite IH.
Qed.
Lemma lines_rebuild : forall m acc, lines_sorted (acc ++ m) ->
  fold_left (fun m x => lt_set m (fst x) (snd x)) m acc = acc ++ m.
Proof.
  induction m as [|[k v] m IH]; intros acc H; cbn [fold_left].
  - now rewrite app_nil_r.
  - cbn [fst snd]. rewrite lt_set_append.
    + rewrite IH; rewrite <- app_assoc; auto.
    + clear IH. unfold lines_sorted in H. induction acc as [|a acc IHa]; constructor.
      * simpl in H. inversion H as [|? ? _ HF]; subst.
        apply Forall_app in HF as [_ HF]. inversion HF; subst. auto.
      * apply IHa. now inversion H.
Qed.

(** ** Whole images *)
Definition reloaded (p : program_t) : program_t :=
  Prog [] (map unbind (p_syscalls p)) (p_functions p) (p_code p) (p_lines p) (p_strings p).

Lemma magic_i32 : in_i32 magic = true. Proof. reflexivity. Qed.

Definition k_tail (sys : list syscall_t) : rd program_t :=
  c_bind (c_list c_func) (fun funs =>
  c_bind c_code (fun code =>
  c_bind (c_list c_line) (fun lines =>
  c_bind (c_list c_str) (fun strs =>
  c_ret (Prog [] sys funs code
              (fold_left (fun m x => lt_set m (fst x) (snd x)) lines [])
              strs))))).
Definition w_tail (p : program_t) : bytes :=
  w_list w_func (p_functions p)
  ++ (le32 (zlen (p_code p)) ++ p_code p)
  ++ w_list w_line (p_lines p)
  ++ w_list w_str (p_strings p).

Section Image.
  Variable p : program_t.
  Hypothesis W : prog_wf p.

  Lemma funcs_reads : reads (c_list c_func) (w_list w_func (p_functions p)) (p_functions p).
  Proof.
    destruct W as (_ & _ & F & CF & _). apply c_list_reads; auto.
    eapply Forall_impl; [|exact F]. apply c_func_reads.
  Qed.
  Lemma funcs_cuts : cuts (c_list c_func) (w_list w_func (p_functions p)).
  Proof.
    destruct W as (_ & _ & F & CF & _).
    apply c_list_cuts; auto; (eapply Forall_impl; [|exact F]); intros;
      now (apply c_func_reads || apply c_func_cuts).
  Qed.
  Lemma lines_reads : reads (c_list c_line) (w_list w_line (p_lines p)) (p_lines p).
  Proof.
    destruct W as (_ & _ & _ & _ & _ & _ & L & _ & CL & _). apply c_list_reads; auto.
    eapply Forall_impl; [|exact L]. apply c_line_reads.
  Qed.
  Lemma lines_cuts : cuts (c_list c_line) (w_list w_line (p_lines p)).
  Proof.
    destruct W as (_ & _ & _ & _ & _ & _ & L & _ & CL & _).
    apply c_list_cuts; auto; (eapply Forall_impl; [|exact L]); intros;
      now (apply c_line_reads || apply c_line_cuts).
  Qed.
  Lemma strs_reads : reads (c_list c_str) (w_list w_str (p_strings p)) (p_strings p).
  Proof.
    destruct W as (_ & _ & _ & _ & _ & _ & _ & _ & _ & S & CS). apply c_list_reads; auto.
    eapply Forall_impl; [|exact S]. apply c_str_reads.
  Qed.
  Lemma strs_cuts : cuts (c_list c_str) (w_list w_str (p_strings p)).
  Proof.
    destruct W as (_ & _ & _ & _ & _ & _ & _ & _ & _ & S & CS).
    apply c_list_cuts; auto; (eapply Forall_impl; [|exact S]); intros;
      now (apply c_str_reads || apply c_str_cuts).
  Qed.

  Lemma tail_reads : forall sys, reads (k_tail sys) (w_tail p)
    (Prog [] sys (p_functions p) (p_code p) (p_lines p) (p_strings p)).
  Proof.
    intros sys. unfold k_tail, w_tail.
    destruct W as (_ & _ & _ & _ & _ & CC & _ & SL & _).
    eapply reads_bind; [apply funcs_reads|].
    eapply reads_bind; [now apply c_code_reads|].
    eapply reads_bind; [apply lines_reads|].
    rewrite (lines_rebuild (p_lines p) []) by exact SL. simpl app.
    apply (reads_map (c_list c_str)
             (fun strs => Prog [] sys (p_functions p) (p_code p) (p_lines p) strs)).
    apply strs_reads.
  Qed.
  Lemma tail_cuts : forall sys, cuts (k_tail sys) (w_tail p).
  Proof.
    intros sys. unfold k_tail, w_tail.
    destruct W as (_ & _ & _ & _ & _ & CC & _ & SL & _).
    eapply cuts_bind; [apply funcs_reads|apply funcs_cuts|].
    eapply cuts_bind; [now apply c_code_reads|now apply c_code_cuts|].
    eapply cuts_bind; [apply lines_reads|apply lines_cuts|].
    eapply (cuts_map (c_list c_str)); [apply strs_reads|apply strs_cuts].
  Qed.
  Lemma tail_nil : forall sys, k_tail sys [] = Ok (None, []).
  Proof. reflexivity. Qed.

  Lemma save_split : serial_save p =
    le32 magic ++ w_list (fun s => w_str (s_name s)) (p_syscalls p) ++ w_tail p.
  Proof. unfold serial_save, w_tail. now rewrite <- !app_assoc. Qed.

  Lemma c_program_reads : reads c_program (serial_save p) (reloaded p).
  Proof.
    rewrite save_split. unfold c_program. destruct W as (S & CS & _).
    eapply reads_bind; [apply c_int_reads, magic_i32|].
    change (negb (magic =? to_i32 magic)) with false. cbn iota.
    eapply reads_bind; [now apply sys_reads|]. apply tail_reads.
  Qed.

  Lemma c_program_cuts : cuts c_program (serial_save p).
  Proof.
    rewrite save_split. unfold c_program. destruct W as (S & CS & _).
    eapply cuts_bind; [apply c_int_reads, magic_i32|apply c_int_cuts|].
    change (negb (magic =? to_i32 magic)) with false. cbn iota.
    intros a b E N.
    destruct (app_split _ _ _ _ E) as [(p2 & -> & E2)|(q2 & E2 & N2 & ->)].
    - unfold c_bind at 1. rewrite sys_reads by auto. cbn [bind].
      eapply tail_cuts; eauto.
    - destruct (sys_wcuts _ S CS _ _ E2 N2) as [[l'|] R].
      + unfold c_bind at 1. rewrite R. cbn [bind]. exact (tail_nil l').
      + unfold c_bind at 1. rewrite R. reflexivity.
  Qed.

  Lemma load_save : forall old junk,
    serial_load old (serial_save p ++ junk) = Ok (true, Some (reloaded p)).
  Proof.
    intros old junk. unfold serial_load.
    rewrite c_program_reads. rewrite save_split, <- app_assoc.
    rewrite (c_int_reads magic magic_i32). cbn [bind].
    change (negb (magic =? to_i32 magic)) with false. reflexivity.
  Qed.

  Lemma load_cut : forall old a b,
    serial_save p = a ++ b -> b <> [] ->
    exists o, serial_load old a = Ok (false, o).
  Proof.
    intros old a b E N. unfold serial_load.
    rewrite (c_program_cuts a b E N).
    rewrite save_split in E.
    destruct (app_split _ _ _ _ E) as [(p2 & -> & E2)|(q2 & E2 & N2 & ->)].
    - rewrite (c_int_reads magic magic_i32). cbn [bind].
      change (negb (magic =? to_i32 magic)) with false. cbn. eauto.
    - rewrite (c_int_cuts _ _ _ E2 N2). cbn. eauto.
  Qed.
End Image.

(** Bad headers. *)
Lemma load_bad_magic : forall old file,
  (forall rest, file <> le32 magic ++ rest) -> bytes_ok file ->
  serial_load old file = Ok (false, Some p_empty).
Proof.
  intros old file H B. unfold serial_load, c_int, fread.
  destruct (4 <=? zlen file) eqn:E; [|reflexivity].
  destruct file as [|b0 [|b1 [|b2 [|b3 t]]]]; try discriminate E.
  assert (T : zfirstn 4 (b0 :: b1 :: b2 :: b3 :: t) = [b0; b1; b2; b3]).
  { cbn. now rewrite zfirstn_0 by lia. }
  rewrite T. cbn [bind].
  destruct (of_le32 b0 b1 b2 b3 =? to_i32 magic) eqn:M; [|reflexivity].
  exfalso.
  assert (M' : b0 + 256 * b1 + 65536 * b2 + 16777216 * b3 = magic).
  { apply Z.eqb_eq in M. unfold of_le32 in M.
    inversion B as [|? ? B0 B']; subst. inversion B' as [|? ? B1 B'']; subst.
    inversion B'' as [|? ? B2 B3']; subst. inversion B3' as [|? ? B3 _]; subst.
    unfold byte_ok in *. change (to_i32 magic) with magic in M. unfold to_i32 in M.
    rewrite Z.mod_small in M by lia.
    destruct (b0 + 256 * b1 + 65536 * b2 + 16777216 * b3 <? 2147483648) eqn:Q; auto.
    unfold magic in *. lia. }
  inversion B as [|? ? B0 B']; subst. inversion B' as [|? ? B1 B'']; subst.
  inversion B'' as [|? ? B2 B3']; subst. inversion B3' as [|? ? B3 _]; subst.
  unfold byte_ok in *. unfold magic in M'.
  apply (H t). change (le32 magic) with [67; 67; 77; 76]. cbn [app].
  assert (b3 = 76) by lia. assert (b2 = 77) by lia. assert (b1 = 67) by lia.
  assert (b0 = 67) by lia. now subst.
Qed.

(** Line order *)
Lemma line_eq_iff : forall a b, line_eq a b = true <-> a = b.
Proof.
  intros [f l] [f' l']; unfold line_eq; cbn; split.
  - intros H. assert (f = f') by lia. assert (l = l') by lia. now subst.
  - intros H; injection H as -> ->. lia.
Qed.
