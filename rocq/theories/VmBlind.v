(** Proof support for C105: the vm does not read the list of globals of a program. *)
From Coq Require Import ZArith List Bool.
From Verif Require Import Base BaseFacts F32 Instr Program VM AbsHeap Gc Host.
Import ListNotations.
Open Scope list_scope.
Open Scope Z_scope.

Definition without_globals (p : program_t) : program_t :=
  Prog [] (p_syscalls p) (p_functions p) (p_code p) (p_lines p) (p_strings p).

Section Blind.
  Context {P H : Type}.
  Variable ops : hops P H.
  Variable p : program_t.
  Notation q := (without_globals p).

  Lemma blind_ins i s : do_ins ops q i s = do_ins ops p i s.
  Proof. destruct i; reflexivity. Qed.
  Lemma blind_step s : step_imp ops q s = step_imp ops p s.
  Proof.
    unfold step_imp. change (fetch q) with (@fetch P H p). change (check_breakpoints q) with (@check_breakpoints P H p). unfold mbind.
    destruct (fetch p s) as [[b s1]| |]; [|reflexivity|reflexivity]. destruct (of_opcode b); [|reflexivity]. rewrite blind_ins. reflexivity.
  Qed.
  Lemma blind_loop n : forall s, resume_loop ops q n s = resume_loop ops p n s.
  Proof.
    reflexivity.
  Qed.
  Lemma blind_resume n s : resume ops q n s = resume ops p n s.
  Proof.
    unfold resume, mbind, mget. destruct (t_fin (m_cur s)); [reflexivity|]. unfold mod_cur. rewrite blind_loop. reflexivity.
  Qed.
  Lemma blind_round n c : forall h g w pre post, vm_round ops q n c h g w pre post = vm_round ops p n c h g w pre post.
  Proof.
    induction n as [|n IH]; intros h g w pre post; cbn [vm_round]; [reflexivity|]. destruct post as [|t post]; [reflexivity|].
    destruct (negb (t_waits t =? 0)); [destruct (chk32 (t_waits t - 1)); cbn [bind]; auto|].
    destruct (t_fin t || negb (no_error t)); [apply IH|]. rewrite blind_resume.
    destruct (resume ops p c (Mst h g w pre t post)) as [[ok s]| |]; [|reflexivity|reflexivity]. destruct ok; [apply IH|reflexivity].
  Qed.
  Lemma blind_vm_resume n v : vm_resume ops q n v = vm_resume ops p n v.
  Proof. unfold vm_resume. apply blind_round. Qed.
  Lemma blind_call_loop n : forall s, call_loop ops q n s = call_loop ops p n s.
  Proof.
    induction n as [|n IH]; intros s; cbn [call_loop]; (destruct (t_fin (m_cur s) || negb (no_error (m_cur s))); [reflexivity|]); [reflexivity|].
    generalize (Z.to_nat (128 * 1024)). intros c. rewrite blind_resume. destruct (resume ops p c s) as [[ok s1]| |]; [|reflexivity|reflexivity].
    destruct ok; [apply IH|reflexivity].
  Qed.
  Lemma blind_call_once n v f args : call_once ops q n v f args = call_once ops p n v f args.
  Proof.
    unfold call_once. destruct (vm_new_thread ops v f args) as [[ok v1]| |]; cbn [bind]; [|reflexivity|reflexivity].
    destruct (gc_collect_vm ops v1) as [v2| |]; cbn [bind]; [|reflexivity|reflexivity]. destruct (negb ok); [reflexivity|].
    destruct (split 0 v2) as [s| |]; cbn [bind]; [|reflexivity|reflexivity]. rewrite blind_call_loop. reflexivity.
  Qed.
  Lemma blind_init v : call_init ops q v = call_init ops p v.
  Proof.
    unfold call_init. unfold function_find. cbn [without_globals p_functions]. match goal with |- match ?x with _ => _ end = _ => destruct x end; [|reflexivity].
    destruct (vm_new_thread ops v f []) as [[ok v1]| |]; cbn [bind]; [|reflexivity|reflexivity]. destruct ok; [|reflexivity]. apply blind_vm_resume.
  Qed.
  Lemma blind_debug n d s : debug_step q ops n d s = debug_step p ops n d s.
  Proof. destruct d; [apply blind_resume|reflexivity..]. Qed.
  Lemma blind_host_step n op v : host_step q ops n op v = host_step p ops n op v.
  Proof.
    destruct op; cbn [host_step]; [reflexivity| | | |reflexivity|].
    - rewrite blind_vm_resume. reflexivity.
    - rewrite blind_init. reflexivity.
    - destruct (new_args ops (vm_heap v) args) as [[h ps]| |]; cbn [bind]; [|reflexivity|reflexivity]. rewrite blind_call_once. reflexivity.
    - destruct (split i v) as [s| |]; [|reflexivity|reflexivity]. rewrite blind_debug. reflexivity.
  Qed.
End Blind.
Lemma blind_host_run {P H} p n : forall (l : list (hops P H * hostop)) v, host_run (without_globals p) n l v = host_run p n l v.
Proof.
  induction l as [|[ops op] l IH]; intros v; cbn [host_run]; [reflexivity|]. rewrite blind_host_step.
  destruct (host_step p ops n op v) as [[x v1]| |]; cbn [bind]; [|reflexivity|reflexivity]. rewrite IH. reflexivity.
Qed.
Lemma vm_blind p n l v : host_gc (without_globals p) n l v = host_gc p n l v.
Proof. apply blind_host_run. Qed.
