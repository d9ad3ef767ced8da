(** Which errors a program can end with when it is run by its meaning. *)
From Coq Require Import ZArith List Bool Lia.
From Verif Require Import Base BaseFacts F32 Program VM AbsHeap Ast Sema SrcSem SrcFacts RunFacts.
Import ListNotations.
Open Scope Z_scope.

(** Division by zero, indexing, types, arguments, members and argument counts. *)
Definition own_fault (e : terr) : Prop :=
  In e [e_bad_divide_by_zero; e_bad_array_bounds; e_bad_array_index; e_bad_array_object; e_bad_type_operation; e_bad_argument;
        e_bad_member_access; e_bad_num_args].

(** ** Syscalls raise bad argument only *)
Section Sys.
  Context {P H : Type}.
  Variable ops : hops P H.
  Variable prog : program_t.
  Notation M := (@M P H).
  Definition arg_only (s s' : mst P H) : Prop := t_err (m_cur s') = t_err (m_cur s) \/ t_err (m_cur s') = Some e_bad_argument.
  Definition keeps {A} (m : M A) : Prop := forall s x s', m s = Ok (x, s') -> arg_only s s'.
  Lemma k_bind A B (m : M A) (k : A -> M B) : keeps m -> (forall x, keeps (k x)) -> keeps (mbind m k).
  Proof.
    intros Km Kk s x s' E. apply mbind_ok in E. destruct E as (y & s1 & E1 & E2). specialize (Km _ _ _ E1). specialize (Kk _ _ _ _ E2).
    unfold arg_only in *. destruct Kk as [->|K]; auto.
  Qed.
  Lemma k_ret A (a : A) : keeps (ret a : M A).
  Proof. intros s x s' E. unfold ret in E. assert (s = s') as <- by congruence. now left. Qed.
  Lemma k_lift A (r : res A) : keeps (lift r : M A).
  Proof. intros s x s' E. apply lift_ok in E. destruct E as [_ ->]. now left. Qed.
  Lemma k_mget A (f : mst P H -> A) : keeps (mget f).
  Proof. intros s x s' E. unfold mget in E. assert (s = s') as <- by congruence. now left. Qed.
  Lemma k_raise : keeps (raise e_bad_argument : M unit).
  Proof. intros s x s' E. unfold raise, mod_cur in E. match type of E with Ok (_, ?y) = _ => assert (y = s') by congruence; subst s' end. now right. Qed.
  Lemma k_mod f : (forall t, t_err (f t) = t_err t) -> keeps (mod_cur f : M unit).
  Proof. intros F s x s' E. unfold mod_cur in E. match type of E with Ok (_, ?y) = _ => assert (y = s') by congruence; subst s' end. left. apply F. Qed.
  Lemma k_heap h : keeps (set_heap h : M unit).
  Proof. intros s x s' E. unfold set_heap in E. match type of E with Ok (_, ?y) = _ => assert (y = s') by congruence; subst s' end. now left. Qed.
  Lemma k_world h : keeps (set_world h : M unit).
  Proof. intros s x s' E. unfold set_world in E. match type of E with Ok (_, ?y) = _ => assert (y = s') by congruence; subst s' end. now left. Qed.
  Lemma k_add t : keeps (add_thread t : M unit).
  Proof. intros s x s' E. unfold add_thread in E. match type of E with Ok (_, ?y) = _ => assert (y = s') by congruence; subst s' end. now left. Qed.
  Lemma k_push p : keeps (push p : M unit).
  Proof. apply k_mod. reflexivity. Qed.
  Lemma k_pop : keeps (pop : M P).
  Proof.
    intros s x s' E. unfold pop in E. destruct (t_stk (m_cur s)) as [|p r]; [discriminate|]. revert E. 
    apply (k_bind _ _ (mod_cur (fun t => t_set_stk t r)) (fun _ => ret p)); [apply k_mod; reflexivity|intros; apply k_ret].
  Qed.
  Lemma k_deref p : keeps (deref ops p : M (view P)).
  Proof. intros s x s' E. unfold deref in E. apply lift_ok in E. destruct E as [_ ->]. now left. Qed.
  Lemma k_new_s c : keeps (new_s ops c : M P).
  Proof.
    intros s x s' E. unfold new_s in E. destruct (h_newS ops (m_heap s) c) as [[h p]| |]; try discriminate. revert E.
    apply (k_bind _ _ (set_heap h) (fun _ => ret p)); [apply k_heap|intros; apply k_ret].
  Qed.
  Lemma k_new_a c : keeps (new_a ops c : M P).
  Proof.
    intros s x s' E. unfold new_a in E. destruct (h_newA ops (m_heap s) c) as [[h p]| |]; try discriminate. revert E.
    apply (k_bind _ _ (set_heap h) (fun _ => ret p)); [apply k_heap|intros; apply k_ret].
  Qed.
  Ltac ks := repeat first
    [ apply k_ret | apply k_lift | apply k_mget | apply k_raise | apply k_push | apply k_heap | apply k_world | apply k_add
    | apply k_pop | apply k_deref | apply k_new_s | apply k_new_a
    | apply k_mod; reflexivity | apply k_bind; [|intros]
    | match goal with
      | |- keeps (if ?b then _ else _) => destruct b
      | |- keeps (match ?x with _ => _ end) => destruct x
      end ].
  Lemma k_pop_v : keeps (pop_v ops : M (view P)).
  Proof. unfold pop_v. ks. Qed.
  Lemma k_push_s c : keeps (push_s ops c : M unit).
  Proof. unfold push_s. ks. Qed.
  Lemma k_pop_n n : keeps (pop_n n : M (list P)).
  Proof. induction n; cbn [pop_n]; ks; auto. Qed.
  Lemma k_pop_hargs n : keeps (pop_hargs ops n : M (list harg)).
  Proof. induction n; cbn [pop_hargs]; [ks|]. apply k_bind; [apply k_pop_v|intros]. apply k_bind; [exact IHn|intros]. ks. Qed.
  Lemma k_copy_all l : keeps (copy_all ops l : M (list P)).
  Proof. induction l; cbn [copy_all]; unfold gc_copy; ks; auto. Qed.
  Lemma k_new_thread f l : keeps (new_thread ops f l : M bool).
  Proof. unfold new_thread. destruct (_ =? _); [|ks]. apply k_bind; [apply k_copy_all|intros]. ks. Qed.
  Ltac ks2 := repeat first
    [ apply k_ret | apply k_lift | apply k_mget | apply k_raise | apply k_push | apply k_heap | apply k_world | apply k_add
    | apply k_pop | apply k_deref | apply k_new_s | apply k_new_a | apply k_pop_v | apply k_push_s | apply k_pop_n | apply k_pop_hargs | apply k_new_thread
    | apply k_mod; reflexivity | apply k_bind; [|intros]
    | match goal with
      | |- keeps (if ?b then _ else _) => destruct b
      | |- keeps (match ?x with _ => _ end) => destruct x
      end ].
  Lemma k_do_syscall i n : keeps (do_syscall ops prog i n : M unit).
  Proof.
    unfold do_syscall. destruct (znth (p_syscalls prog) i) as [[nm [f|]]|]; [|ks2..].
    destruct f; cbn [run_sys]; cbv zeta; unfold sys_float, push_none, push_hret, push_none; ks2.
  Qed.
End Sys.
Lemma vm_sys_fault q i vs st e st' : vm_sys q i vs st = Error e st' -> own_fault e.
Proof.
  unfold vm_sys. destruct (do_syscall _ _ _ _ _) as [[u s]| |] eqn:E; try discriminate. intros X.
  destruct (k_do_syscall _ _ _ _ _ _ _ E) as [K|K]; cbn in K; rewrite K in X.
  - destruct (t_stk (m_cur s)) as [|? [|? ?]]; discriminate X.
  - injection X as <- _. unfold own_fault. cbn. tauto.
Qed.

(** ** Programs *)
Definition faulty {A} (o : outcome A) : Prop := match o with Error e _ => own_fault e | _ => True end.
Lemma f_bind A B (m : outcome A) (k : A -> outcome B) : faulty m -> (forall x, faulty (k x)) -> faulty (obind m k).
Proof. destruct m; cbn; auto. Qed.
Ltac own := cbv [faulty own_fault]; cbn; tauto.
Lemma f_look st v : faulty (look st v).
Proof. unfold look. destruct (abs_view _ _); exact I. Qed.
Lemma f_read d r st : faulty (read d r st).
Proof. unfold read. destruct (vd_const d); [exact I|]. destruct (match vd_kind d with KLocal => _ | KArg => _ | KGlobal => _ end); exact I. Qed.
Lemma f_write d v r st : faulty (write d v r st).
Proof. unfold write. destruct (vd_const d); [exact I|]. destruct (vd_kind d); (destruct (lookup _ _); exact I). Qed.
Lemma f_truth v st : faulty (truth v st).
Proof. apply f_bind; [apply f_look|]. intros; exact I. Qed.
Definition clean_op (r : res oc) : Prop := match r with Ok (ORaise e) => own_fault e | _ => True end.
Lemma f_answer r st : clean_op r -> faulty (answer r st).
Proof. destruct r as [[c|e]| |]; cbn; auto. Qed.
Lemma f_apply2 o a b st : faulty (apply2 o a b st).
Proof.
  apply f_bind; [apply f_look|]. intros wb. apply f_bind; [apply f_look|]. intros wa. apply f_answer.
  generalize (plain wa) (plain wb). intros l r. unfold clean_op.
  destruct (binary o l r) as [[c|e]| |] eqn:E; auto. destruct o; cbn [binary] in E.
  all: unfold op_add, op_sub, op_mul, op_div, op_mod, op_and, op_or, op_eq, op_lt, op_gt, op_leq, op_geq in E;
    repeat (unfold bind, float_op, float_cmp in E; cbn in E; match type of E with
      | context [match ?x with _ => _ end] => first [destruct x eqn:?|destruct x]; try discriminate E
      end); try discriminate E; try (injection E as <-; own).
Qed.
Lemma f_apply1 o a st : faulty (apply1 o a st).
Proof.
  apply f_bind; [apply f_look|]. intros wa. apply f_answer. generalize (plain wa). intros l. unfold clean_op.
  destruct (unary o l) as [[c|e]| |] eqn:E; auto. destruct o; cbn [unary] in E; unfold op_neg, op_not in E;
    repeat (unfold bind in E; cbn in E; match type of E with context [match ?x with _ => _ end] => destruct x; try discriminate E end); try discriminate E; injection E as <-; own.
Qed.
Lemma f_element a i st : faulty (element a i st).
Proof.
  apply f_bind; [apply f_look|]. intros w. destruct w as [|c|l]; [own| |].
  - destruct i as [|[]|]; try (apply f_bind; [apply f_look|intros; own]). destruct c; try own. destruct (znth _ _); own.
  - destruct i as [|[]|]; try (apply f_bind; [apply f_look|intros; own]). destruct (znth _ _); own.
Qed.
Lemma f_set_element a i v st : faulty (set_element a i v st).
Proof.
  apply f_bind; [apply f_look|]. intros w. destruct a; try own. destruct w as [|c|l]; try own.
  destruct i as [|[]|]; try (apply f_bind; [apply f_look|intros; own]). destruct (_ && _); [|own]. apply f_bind; [apply f_look|intros; exact I].
Qed.
Lemma f_member a x st : faulty (member a x st).
Proof. apply f_bind; [apply f_look|]. intros [|c|l]; try own. destruct (bytes_eqb _ _); own. Qed.

Section Faults.
  Variable items : list ritem.
  Variable fa : nat -> Z.
  Variable si : bytes -> Z.
  Variable sy : Z -> list aval -> sst -> outcome (aval * sst).
  Hypothesis Sy : forall i vs st, faulty (sy i vs st).
  Lemma faults : forall n,
    (forall r e st, faulty (run_expr items fa si sy n r e st)) /\ (forall r es st, faulty (run_exprs items fa si sy n r es st)) /\
    (forall x vs st, faulty (run_call items fa si sy n x vs st)) /\ (forall r s st, faulty (run_stmt items fa si sy n r s st)) /\
    (forall r b st, faulty (run_stmts items fa si sy n r b st)) /\ (forall r o st, faulty (run_block items fa si sy n r o st)) /\
    (forall r d l b st, faulty (run_for items fa si sy n r d l b st)).
  Proof.
    induction n as [|n (E & Es & C & St & Ss & Bl & Fo)]; [repeat split; intros; exact I|].
    assert (Call : forall r f es st, faulty (
            let* (vs, st1) := run_exprs items fa si sy n r es st in
            match f with
            | RIdent (DF fd) _ =>
                if fd_sys fd then sy (si (fd_name fd)) vs st1
                else match by_id items (fd_id fd) with Some x => run_call items fa si sy n x vs st1 | None => Undefined end
            | _ =>
                let* (fv, st2) := run_expr items fa si sy n r f st1 in
                match fv with
                | AS (SSys i) => sy i vs st2
                | AS (SFun a) =>
                    match by_addr items fa a with
                    | Some x => if zlen (snd (fst x)) =? zlen vs then run_call items fa si sy n x vs st2 else Error e_bad_num_args st2
                    | None => Undefined
                    end
                | ANone => Undefined
                | _ => let* _ := look st2 fv in Error e_bad_type_operation st2
                end
            end)).
    { intros r f es st. apply f_bind; [apply Es|]. intros [vs st1].
      assert (G : faulty (let* (fv, st2) := run_expr items fa si sy n r f st1 in
                match fv with
                | AS (SSys i) => sy i vs st2
                | AS (SFun a) =>
                    match by_addr items fa a with
                    | Some x => if zlen (snd (fst x)) =? zlen vs then run_call items fa si sy n x vs st2 else Error e_bad_num_args st2
                    | None => Undefined
                    end
                | ANone => Undefined
                | _ => let* _ := look st2 fv in Error e_bad_type_operation st2
                end)).
      { apply f_bind; [apply E|]. intros [fv st2]. destruct fv as [|[]|]; try exact I; try apply Sy; try (apply f_bind; [apply f_look|intros; own]).
        destruct (by_addr _ _ _); [|exact I]. destruct (_ =? _); [apply C|own]. }
      destruct f as [| | | |[|fd]| | | | | |]; try exact G. destruct (fd_sys fd); [apply Sy|]. destruct (by_id _ _); [apply C|exact I]. }
    repeat split; intros.
    - rewrite run_expr_S. destruct e as [| | | |[d|f] ?| | | | | |]; try exact I; try apply Call;
        repeat (first [apply f_member|apply f_element|apply f_apply2|apply f_apply1|apply f_bind; [first [apply E|apply Es|apply f_read]|intros; repeat match goal with x : (_ * _)%type |- _ => destruct x end]]);
        try exact I.
      destruct es; exact I.
    - rewrite run_exprs_S. destruct es; [exact I|]. apply f_bind; [apply E|]. intros []. apply f_bind; [apply Es|]. intros []. exact I.
    - rewrite run_call_S. destruct x as [[f args] body]. destruct (_ =? _); [|exact I]. apply f_bind; [apply Ss|]. intros [[[v|] ?] ?]; exact I.
    - rewrite run_stmt_S. destruct s as [d oe|d l e|d l ? ? e|d l i e|l f es|l c t f|l c b|l d ? a b body|l oe].
      + destruct (vd_kind d), (vd_const d); try exact I. destruct oe; [|exact I]. apply f_bind; [apply E|]. intros []. exact I.
      + apply f_bind; [apply E|]. intros []. apply f_bind; [apply f_write|]. intros []. exact I.
      + apply f_bind; [apply E|]. intros []. apply f_bind; [apply f_read|]. intros ?. own.
      + apply f_bind; [apply E|]. intros []. apply f_bind; [apply E|]. intros []. apply f_bind; [apply f_read|]. intros ?.
        apply f_bind; [apply f_set_element|]. intros ?. exact I.
      + apply f_bind; [apply E|]. intros []. exact I.
      + apply f_bind; [apply E|]. intros []. apply f_bind; [apply f_truth|]. intros ?. apply Bl.
      + apply f_bind; [apply E|]. intros []. apply f_bind; [apply f_truth|]. intros []; [|exact I].
        apply f_bind; [apply Bl|]. intros [[[v|] ?] ?]; [exact I|apply St].
      + apply f_bind; [apply E|]. intros []. apply f_bind; [apply f_write|]. intros []. apply Fo.
      + destruct oe; [|exact I]. apply f_bind; [apply E|]. intros []. exact I.
    - rewrite run_stmts_S. destruct b; [exact I|]. apply f_bind; [apply St|]. intros [[[v|] ?] ?]; [exact I|apply Ss].
    - rewrite run_block_S. destruct o; [|exact I]. apply f_bind; [apply Ss|]. intros [[? ?] ?]. exact I.
    - rewrite run_for_S. apply f_bind; [apply f_read|]. intros ?. apply f_bind; [apply E|]. intros []. apply f_bind; [apply f_apply2|]. intros [].
      apply f_bind; [apply f_truth|]. intros []; [|exact I]. apply f_bind; [apply Bl|]. intros [[[v|] ?] ?]; [exact I|].
      apply f_bind; [apply f_read|]. intros ?. apply f_bind; [apply f_apply2|]. intros []. apply f_bind; [apply f_write|]. intros []. apply Fo.
  Qed.
End Faults.
Lemma call_fault items fa si q n x vs st e st' : run_call items fa si (vm_sys q) n x vs st = Error e st' -> own_fault e.
Proof.
  intros E. assert (Sy : forall i vs st, faulty (vm_sys q i vs st)).
  { intros i us st0. destruct (vm_sys q i us st0) as [|e0 s0| |] eqn:X; try exact I. now apply vm_sys_fault in X. }
  destruct (faults items fa si (vm_sys q) Sy n) as (_ & _ & C & _). specialize (C x vs st). now rewrite E in C.
Qed.
