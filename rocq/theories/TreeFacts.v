(** The dump of a syntax tree. *)
From Coq Require Import ZArith List Bool Lia String ZifyBool.
From Verif Require Import Base BaseFacts F32 Program Ast Sema Tools ToolSpec SemaFacts OptFacts.
Import ListNotations.
Open Scope Z_scope.

(** The nodes the collector deletes. *)
Definition gone (k : string) : bool := (String.eqb k "ast_exp_array_init_t" || String.eqb k "ast_stmt_assign_member_t")%string.
Fixpoint lost (t : node) : bool :=
  match t with Node k _ cs => gone k || existsb lost cs end.

Definition node_ind2 (P : node -> Prop) (H : forall k r cs, Forall P cs -> P (Node k r cs)) : forall t, P t :=
  fix go (t : node) : P t :=
    match t with
    | Node k r cs => H k r cs ((fix all (l : list node) : Forall P l :=
        match l with [] => Forall_nil P | c :: l' => Forall_cons c (go c) (all l') end) cs)
    end.
Lemma lost_iff t : lost t = true <-> has_kind "ast_exp_array_init_t" t \/ has_kind "ast_stmt_assign_member_t" t.
Proof.
  induction t as [k r cs IH] using node_ind2. cbn [lost has_kind]. rewrite orb_true_iff. unfold gone. rewrite orb_true_iff, !String.eqb_eq.
  assert (E : existsb lost cs = true <->
    (fix go (l : list node) : Prop := match l with [] => False | c :: r0 => has_kind "ast_exp_array_init_t" c \/ go r0 end) cs \/
    (fix go (l : list node) : Prop := match l with [] => False | c :: r0 => has_kind "ast_stmt_assign_member_t" c \/ go r0 end) cs).
  { induction IH as [|c cs H F IH2]; cbn [existsb]; [split; [discriminate|tauto]|]. rewrite orb_true_iff, H, IH2. tauto. }
  rewrite E. tauto.
Qed.

(** What the printer answers for a tree. *)
Definition shows (d : nat) (t : node) (r : res bytes) : Prop :=
  r = if lost t then Stuck SDangling else Ok (outline d t).
Definition shows_all (d : nat) (ts : list node) (r : res bytes) : Prop :=
  r = if existsb lost ts then Stuck SDangling else Ok (flat_map (outline d) ts).

Lemma shows_nil d : shows_all d [] (Ok []). Proof. reflexivity. Qed.
Lemma shows_one d t r : shows d t r -> shows_all d [t] r.
Proof. unfold shows, shows_all. intros ->. cbn [existsb flat_map]. rewrite orb_false_r, app_nil_r. reflexivity. Qed.
Lemma shows_app d a b r s : shows_all d a r -> shows_all d b s -> shows_all d (a ++ b) (x <- r ;; y <- s ;; Ok (x ++ y)).
Proof.
  unfold shows_all. intros -> ->. rewrite existsb_app, flat_map_app. destruct (existsb lost a); [reflexivity|]. destruct (existsb lost b); reflexivity.
Qed.
Lemma shows_map {A} d (f : A -> res bytes) (t : A -> node) l : Forall (fun a => shows d (t a) (f a)) l -> shows_all d (map t l) (print_all f l).
Proof.
  induction 1 as [|a l H F IH]; [reflexivity|]. cbn [map print_all]. apply (shows_app d [t a]); [apply shows_one; exact H|exact IH].
Qed.
Lemma shows_opt {A} d (f : A -> res bytes) (t : A -> node) o : (forall a, o = Some a -> shows d (t a) (f a)) -> shows_all d (maybe t o) (print_opt f o).
Proof. destruct o as [a|]; intros H; [apply shows_one, H; reflexivity|reflexivity]. Qed.

Lemma shows_node d k rm cs r (f : bytes -> res bytes) : gone k = false -> shows_all (S d) cs r ->
  (forall x, f x = Ok (List.concat (repeat (bs ".  ") d) ++ one_line (bs k ++ rm) ++ x)) -> shows d (Node k rm cs) (bind r f).
Proof. unfold shows, shows_all. intros G -> F. cbn [lost outline]. rewrite G. cbn [orb]. destruct (existsb lost cs); [reflexivity|]. cbn [bind]. apply F. Qed.
Lemma row_eq d k rm x : row d (bs k ++ rm) ++ x = List.concat (repeat (bs ".  ") d) ++ one_line (bs k ++ rm) ++ x.
Proof. unfold row, one_line, nl. rewrite <- !app_assoc. reflexivity. Qed.

Lemma shows_leaf d k rm s : gone k = false -> s = bs k ++ rm -> shows d (leaf k rm) (Ok (row d s)).
Proof. intros G ->. unfold shows, leaf. cbn [lost existsb outline flat_map]. rewrite G. cbn [orb]. rewrite <- row_eq, app_nil_r. reflexivity. Qed.
Lemma shows_node1 d k rm cs r s : gone k = false -> s = bs k ++ rm -> shows_all (S d) cs r ->
  shows d (Node k rm cs) (x <- r ;; Ok (row d s ++ x)).
Proof. intros G -> H. apply shows_node; [exact G|exact H|]. intros x. f_equal. apply row_eq. Qed.
Lemma shows_node2 d k rm a b r1 r2 s : gone k = false -> s = bs k ++ rm -> shows_all (S d) a r1 -> shows_all (S d) b r2 ->
  shows d (Node k rm (a ++ b)) (x <- r1 ;; y <- r2 ;; Ok (row d s ++ x ++ y)).
Proof.
  intros G E A B. pose proof (shows_node1 d k rm (a ++ b) _ s G E (shows_app _ _ _ _ _ A B)) as H.
  destruct r1; [|exact H|exact H]. destruct r2; exact H.
Qed.
Lemma shows_node3 d k rm a b c r1 r2 r3 s : gone k = false -> s = bs k ++ rm -> shows_all (S d) a r1 -> shows_all (S d) b r2 -> shows_all (S d) c r3 ->
  shows d (Node k rm (a ++ b ++ c)) (x <- r1 ;; y <- r2 ;; z <- r3 ;; Ok (row d s ++ x ++ y ++ z)).
Proof.
  intros G E A B C. pose proof (shows_node1 d k rm (a ++ b ++ c) _ s G E (shows_app _ _ _ _ _ A (shows_app _ _ _ _ _ B C))) as H.
  destruct r1; [|exact H|exact H]. destruct r2; [|exact H|exact H]. destruct r3; exact H.
Qed.
Lemma shows_gone d k rm cs (r : res bytes) : gone k = true -> shows d (Node k rm cs) (Stuck SDangling).
Proof. intros G. unfold shows. cbn [lost]. rewrite G. reflexivity. Qed.
Lemma named_eq k x : named k x = bs k ++ called x. Proof. reflexivity. Qed.

Section Print.
  Variable ff : f32 -> bytes.
  Lemma expr_shown e : forall d, shows d (expr_tree ff e) (print_expr ff d e).
  Proof.
    induction e using rexpr_nested; intros d0; cbn [expr_tree print_expr reading gc_records]; try (apply shows_leaf; reflexivity).
    - apply shows_gone; [exact (Ok [])|reflexivity].
    - apply (shows_node2 _ _ _ [_] [_]); [reflexivity|reflexivity|apply shows_one; auto|apply shows_one; auto].
    - apply shows_node2; [reflexivity|reflexivity| |apply shows_one; auto]. apply shows_map. eapply Forall_impl; [|eassumption]. cbn beta. auto.
    - apply (shows_node2 _ _ _ [_] [_]); [reflexivity|destruct o; reflexivity|apply shows_one; auto|apply shows_one; auto].
    - apply shows_node1; [reflexivity|reflexivity|apply shows_one; auto].
  Qed.
  Lemma oexpr_shown d o : shows_all d (maybe (expr_tree ff) o) (print_opt (print_expr ff d) o).
  Proof. apply shows_opt. intros. apply expr_shown. Qed.
  Lemma block_shown d b : Forall (fun x => forall d, shows d (stmt_tree ff x) (print_stmt ff d x)) b -> shows d (block_tree ff b) (print_block ff d b).
  Proof.
    intros F. unfold print_block, block_tree, reading. cbn [gc_records]. apply shows_node1; [reflexivity|reflexivity|]. apply shows_map. eapply Forall_impl; [|exact F]. cbn beta. auto.
  Qed.
  Lemma stmt_shown x : forall d, shows d (stmt_tree ff x) (print_stmt ff d x).
  Proof.
    induction x using rstmt_nested; intros d0.
    - apply shows_node1; [reflexivity|reflexivity|apply oexpr_shown].
    - apply shows_node1; [reflexivity|reflexivity|apply shows_one, expr_shown].
    - apply shows_gone; [exact (Ok [])|reflexivity].
    - apply (shows_node2 _ _ _ [_] [_]); [reflexivity|reflexivity|apply shows_one, expr_shown|apply shows_one, expr_shown].
    - apply shows_node1; [reflexivity|reflexivity|apply shows_one, expr_shown].
    - apply (shows_node3 _ _ _ [_]); [reflexivity|reflexivity|apply shows_one, expr_shown| |].
      + apply (shows_opt _ (print_block ff (S d0)) (block_tree ff)). intros b ->. apply block_shown. exact H.
      + apply (shows_opt _ (print_block ff (S d0)) (block_tree ff)). intros b ->. apply block_shown. exact H0.
    - apply (shows_node2 _ _ _ [_]); [reflexivity|reflexivity|apply shows_one, expr_shown|].
      apply (shows_opt _ (print_block ff (S d0)) (block_tree ff)). intros b0 ->. apply block_shown. exact H.
    - apply (shows_node3 _ _ _ [_] [_] [_]); [reflexivity|reflexivity|apply shows_one, expr_shown|apply shows_one, expr_shown|].
      apply shows_one. apply (block_shown (S d0)). exact H.
    - apply shows_node1; [reflexivity|reflexivity|apply oexpr_shown].
  Qed.
  Lemma item_shown i : forall d, shows d (item_tree ff i) (print_item ff d i).
  Proof.
    intros d. destruct i as [f|v e|f args b lend]; cbn [print_item item_tree reading gc_records].
    - apply shows_leaf; reflexivity.
    - apply shows_node1; [reflexivity|reflexivity|apply oexpr_shown].
    - apply shows_node2; [reflexivity|reflexivity| |].
      + apply shows_map. apply Forall_forall. intros v _. apply shows_leaf; reflexivity.
      + apply shows_one, block_shown. apply Forall_forall. intros x _. apply stmt_shown.
  Qed.
  Lemma tree_shown items : shows 0 (program_tree ff items) (print_tree ff items).
  Proof.
    unfold print_tree, program_tree. apply (shows_node1 0 "ast_program_t" []); [reflexivity|reflexivity|]. apply shows_map. apply Forall_forall. intros i _. apply item_shown.
  Qed.
End Print.
