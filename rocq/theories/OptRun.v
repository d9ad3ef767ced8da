(** Proof support: sessions of an optimised program are those of the program. *)
From Coq Require Import ZArith List Bool Lia.
From Verif Require Import Base BaseFacts Program VM AbsHeap Ast Sema SemaSpec SemaFacts Optimize SrcSem SrcFacts OptSpec OptFacts CgSpec RunSpec.
Import ListNotations.
Open Scope Z_scope.

Section Step.
  Variables (items items' : list ritem) (q : program_t) (sx : bytes -> Z) (sys : Z -> list aval -> sst -> outcome (aval * sst)).
  Hypothesis B : Forall2 ibetter items items'.
  Lemma better_entry id : entry items q id = entry items' q id.
  Proof.
    pose proof (find_fbetter (fun x => Nat.eqb (fd_id (fst (fst x))) id) _ _ (functs_better items items' B)
                  ltac:(intros ? ? Q; cbv beta; rewrite Q; reflexivity)) as F.
    unfold entry, by_id. destruct (find _ (functs items)) as [[[f args] b]|], (find _ (functs items')) as [[[f' args'] b']|];
      try contradiction; [|reflexivity]. destruct F as [F _]. cbn [fst] in F. inversion F; subst. reflexivity.
  Qed.
  Lemma named_better x f : named items x = Some f -> exists f', named items' x = Some f' /\ fbetter f f'.
  Proof.
    pose proof (find_fbetter (fun f => bytes_eqb (fd_name (fst (fst f))) x) _ _ (functs_better items items' B)
                  ltac:(intros ? ? Q; cbv beta; rewrite Q; reflexivity)) as F.
    unfold named. destruct (find _ (functs items)) as [y|], (find _ (functs items')) as [y'|]; try contradiction; [|discriminate].
    intros E. inversion E; subst. eauto.
  Qed.
  Lemma named_same x : named items x = None -> named items' x = None.
  Proof.
    pose proof (find_fbetter (fun f => bytes_eqb (fd_name (fst (fst f))) x) _ _ (functs_better items items' B)
                  ltac:(intros ? ? Q; cbv beta; rewrite Q; reflexivity)) as F.
    unfold named. destruct (find _ (functs items)) as [y|], (find _ (functs items')) as [y'|]; try contradiction; [discriminate|reflexivity].
  Qed.
  Lemma session_better st calls xs st2 : session items (entry items q) sx sys st calls xs st2 ->
    session items' (entry items' q) sx sys st calls xs st2.
  Proof.
    induction 1 as [st|st x vs rest f n0 r st' xs st2 Na R S IH|st x vs rest f n0 e st' xs st2 Na R S IH]; [constructor| |].
    - destruct (named_better _ _ Na) as (f' & Na' & F).
      destruct (sim_all items items' (entry items q) (entry items' q) better_entry sx sys B n0) as (_ & _ & C & _).
      destruct (C f f' (map passed vs) st F) as [T|T]; [congruence|]. eapply session_value; [exact Na'|rewrite <- T; exact R|exact IH].
    - destruct (named_better _ _ Na) as (f' & Na' & F).
      destruct (sim_all items items' (entry items q) (entry items' q) better_entry sx sys B n0) as (_ & _ & C & _).
      destruct (C f f' (map passed vs) st F) as [T|T]; [congruence|]. eapply session_error; [exact Na'|rewrite <- T; exact R|exact IH].
  Qed.
  Lemma init_better n st r : init_result (initial items (entry items q) sx sys n st) = Some r ->
    init_result (initial items' (entry items' q) sx sys n st) = Some r.
  Proof.
    intros R. destruct (initial_better items items' (entry items q) (entry items' q) better_entry sx sys B n st) as [T|T]; rewrite T in R; [discriminate|exact R].
  Qed.
End Step.

Lemma optimize_chain on items n items' n' : (forall id, In id (literal_nodes items) -> (id < n)%nat) ->
  (on = true -> unshared items) -> run_optimize on items n = Ok (items', n') ->
  exists a b, Forall2 ibetter items a /\ Forall2 ibetter a b /\ Forall2 ibetter b items'.
Proof.
  intros Lt U E. unfold run_optimize in E. destruct on.
  - specialize (U eq_refl). inv_bind E. destruct a as [r n1]. inversion E; subst.
    pose proof (post_ret_fewer n items) as F1. pose proof (const_expr_fewer _ _ _ _ E0) as F2.
    exists (map post_ret items), r. split; [apply post_ret_better|]. split; [eapply const_expr_better; exact E0|].
    apply if_remove_better. eapply fewer_unshared; [|exact F2|eapply fewer_unshared; eassumption].
    eapply fewer_bound; eassumption.
  - inversion E; subst. assert (R : Forall2 ibetter items' items') by (clear; induction items'; constructor; auto using ibetter_refl).
    exists items', items'. auto.
Qed.
