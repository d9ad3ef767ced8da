(** Sources and imports: proofs about the loop of nano_t::build over the sources. *)
From Coq Require Import ZArith List Bool Lia String.
From Verif Require Import Base BaseFacts Source SourceProofs Lexer LexSpec LexFacts PropertiesLexer Ast Parser ParseFacts ParseSafe PropertiesParser ParseTail Build.
Import ListNotations.
Open Scope Z_scope.

(** The text of [s] consists of the declarations [is] (for some position of [s] in
    the list of sources and some history of the parser). *)
Definition consists_of (fs : bytes -> option bytes) (s : source_t) (is : list item) : Prop :=
  exists file text ts m left m' st,
    so_data s = Some text /\ lex file text = Ok ts /\ parse fs s m left ts = Ok (is, m', st).
(** [s] is what loading the file at its path gives. *)
Definition is_file (fs : bytes -> option bytes) (s : source_t) : Prop :=
  load_from_file fs (so_path s) = (true, s).

(** ** The effect of the imports of one source *)
Inductive loads (fs : bytes -> option bytes) (src : source_t) : list source_t -> list item -> list source_t -> Prop :=
| loads_nil m : loads fs src m [] m
| loads_import m name l m1 is m2 : sm_load fs m (imported_path src name) = (true, m1) -> loads fs src m1 is m2 ->
    loads fs src m (TImport name l :: is) m2
| loads_other m i is m2 : (forall name l, i <> TImport name l) -> loads fs src m is m2 -> loads fs src m (i :: is) m2.

Lemma parse_function_item n s i s' : parse_function n s = Ok (i, s') -> forall name l, i <> TImport name l.
Proof.
  unfold parse_function. intros E.
  repeat (apply bind_ok in E; destruct E as (? & _ & E);
    repeat match type of E with context [let '(_, _) := ?x in _] => destruct x end;
    repeat match type of E with context [match ?x with (_, _) => _ end] => destruct x end).
  inversion E; subst. discriminate.
Qed.
Lemma items_loads fs src n : forall m s is m' s', parse_items fs src n m s = Ok (is, m', s') -> loads fs src m is m'.
Proof.
  induction n as [|n IH]; intros m s is m' s' E; [discriminate|]. rewrite parse_items_S in E.
  apply bind_ok in E. destruct E as ([o s1] & _ & E). destruct o as [t0|]; [inversion E; constructor|].
  apply bind_ok in E. destruct E as ([t s2] & _ & E).
  destruct (kind_of (tk t));
    try (apply bind_ok in E; destruct E as ([t2 s3] & _ & E); unfold perr in E; destruct (kind_of (tk t2)); discriminate).
  - apply bind_ok in E. destruct E as ([f s3] & F & E). apply bind_ok in E. destruct E as ([[r m1] s4] & R & E). inversion E; subst.
    apply loads_other; [exact (parse_function_item _ _ _ _ F)|eapply IH; exact R].
  - apply bind_ok in E. destruct E as ([[[x l] e] s3] & F & E). apply bind_ok in E. destruct E as ([[r m1] s4] & R & E). inversion E; subst.
    apply loads_other; [discriminate|eapply IH; exact R].
  - eapply IH; exact E.
  - apply bind_ok in E. destruct E as ([[[x l] e] s3] & F & E). apply bind_ok in E. destruct E as ([[r m1] s4] & R & E). inversion E; subst.
    apply loads_other; [discriminate|eapply IH; exact R].
  - apply bind_ok in E. destruct E as ([[i m1] s3] & F & E). apply bind_ok in E. destruct E as ([[r m2] s4] & R & E). inversion E; subst.
    unfold parse_import in F. apply bind_ok in F. destruct F as ([t1 s5] & _ & F).
    destruct (sm_load fs m (imported_path src (t_str t1))) as [[|] m3] eqn:L; [|unfold perr in F; destruct (kind_of (tk t1)); discriminate].
    inversion F; subst. eapply loads_import; [exact L|eapply IH; exact R].
Qed.

(** ** Loading *)
Lemma load_file fs p s : load_from_file fs p = (true, s) -> so_path s = p /\ is_file fs s /\ exists d, fs p = Some d /\ so_data s = Some d.
Proof.
  intros E. pose proof E as E0. unfold load_from_file in E0. destruct (fs p) as [[|c d]|] eqn:F; inversion E0; subst.
  split; [reflexivity|]. split; [exact E|]. exists (c :: d). auto.
Qed.
Lemma existsb_already m p : existsb (fun s => path_cmp (so_path s) p) m = true -> already m p.
Proof. intros E. apply existsb_exists in E. destruct E as (s & I0 & C). apply path_cmp_iff in C. destruct C as (q & r & -> & F). exists s, q, r. auto. Qed.
Lemma already_mono m m' p : already m p -> already (m ++ m') p.
Proof. intros (s & q & r & I0 & E & F). exists s, q, r. split; [apply in_or_app; auto|auto]. Qed.
Lemma already_self m s : In s m -> already m (so_path s).
Proof.
  intros I0. exists s, (so_path s), []. split; [exact I0|]. split; [now rewrite app_nil_r|].
  induction (so_path s); constructor; [left; reflexivity|assumption].
Qed.
Lemma load_cases fs m p m1 : sm_load fs m p = (true, m1) ->
  (m1 = m /\ already m p) \/
  (exists s, m1 = m ++ [s] /\ so_path s = p /\ is_file fs s /\ ~ In p (map so_path m)).
Proof.
  unfold sm_load. destruct (existsb _ m) eqn:E; intros H.
  - left. inversion H; subst. split; [reflexivity|now apply existsb_already].
  - right. destruct (load_from_file fs p) as [ok s] eqn:L. inversion H; subst ok m1. exists s. split; [reflexivity|].
    destruct (load_file _ _ _ L) as (P & F & _). split; [exact P|]. split; [exact F|].
    intros I0. apply in_map_iff in I0. destruct I0 as (s0 & P0 & I0). apply already_self in I0. rewrite P0 in I0.
    pose proof (sm_load_already fs m p I0) as A. unfold sm_load in A. rewrite E, L in A.
    inversion A as [A0]. apply (f_equal (@List.length _)) in A0. rewrite app_length in A0. cbn in A0. lia.
Qed.

(** A list of sources and its growth: files at new paths, each imported by [src]
    through one of [is]. *)
Record grown (fs : bytes -> option bytes) (m new : list source_t) : Prop := Grown {
  gr_files : Forall (is_file fs) new;
  gr_once : NoDup (map so_path new);
  gr_new : forall s, In s new -> ~ In (so_path s) (map so_path m)
}.
Lemma grown_nil fs m : grown fs m [].
Proof. constructor; [constructor|constructor|intros s []]. Qed.
Lemma grown_app fs m a b : grown fs m a -> grown fs (m ++ a) b -> grown fs m (a ++ b).
Proof.
  intros [A1 A2 A3] [B1 B2 B3]. constructor.
  - apply Forall_app. auto.
  - rewrite map_app. clear A1 A3 B1. induction a as [|s a IH]; cbn [map app] in *; [exact B2|]. inversion A2 as [|? ? N A4]; subst.
    constructor.
    + intros I0. apply in_app_or in I0. destruct I0 as [I0|I0]; [contradiction|]. apply in_map_iff in I0. destruct I0 as (t & P & I0).
      apply (B3 _ I0). rewrite P. rewrite map_app. apply in_or_app. right. left. reflexivity.
    + apply IH; [exact A4|]. intros t I0 I1. apply (B3 _ I0). rewrite map_app in *. apply in_app_or in I1. apply in_or_app. cbn [map].
      destruct I1; [left|right; right]; assumption.
  - intros s I0. apply in_app_or in I0. destruct I0 as [I0|I0]; [auto|]. intros I1. apply (B3 _ I0). rewrite map_app. apply in_or_app. auto.
Qed.
Lemma loads_grown fs src m is m' : loads fs src m is m' -> exists new, m' = m ++ new /\ grown fs m new /\
  (forall s, In s new -> exists name l, In (TImport name l) is /\ so_path s = imported_path src name) /\
  (forall name l, In (TImport name l) is -> already m' (imported_path src name)).
Proof.
  induction 1 as [m|m name l m1 is m2 L H IH|m i is m2 N H IH].
  - exists []. rewrite app_nil_r. split; [reflexivity|]. split; [apply grown_nil|]. split; [intros s []|intros name l []].
  - destruct IH as (new & -> & G & A & B). destruct (load_cases _ _ _ _ L) as [[-> AL]|(s & -> & P & F & NI)].
    + exists new. split; [reflexivity|]. split; [exact G|]. split.
      * intros s I0. destruct (A s I0) as (x & k & I1 & E). exists x, k. split; [right; exact I1|exact E].
      * intros x k [E|I0]; [inversion E; subst; now apply already_mono|eauto].
    + exists (s :: new). rewrite <- app_assoc. split; [reflexivity|]. split.
      { change (s :: new) with ([s] ++ new). apply grown_app; [|exact G]. constructor; [constructor; auto|constructor; [intros []|constructor]|].
        intros t [<-|[]]. now rewrite P. }
      split.
      * intros t [<-|I0]; [exists name, l; split; [left; reflexivity|exact P]|]. destruct (A t I0) as (x & k & I1 & E). exists x, k. split; [right; exact I1|exact E].
      * intros x k [E|I0].
        -- inversion E; subst x k. rewrite <- P. apply already_self. apply in_or_app. right. left. reflexivity.
        -- specialize (B x k I0). rewrite <- app_assoc in B. exact B.
  - destruct IH as (new & -> & G & A & B). exists new. split; [reflexivity|]. split; [exact G|]. split.
    + intros s I0. destruct (A s I0) as (x & k & I1 & E). exists x, k. split; [right; exact I1|exact E].
    + intros x k [E|I0]; [destruct (N _ _ E)|eauto].
Qed.

(** ** The loop *)
Lemma zskipn_nth {A} (l : list A) i x : znth l i = Some x -> skipn (Z.to_nat i) l = x :: skipn (Z.to_nat (i + 1)) l.
Proof.
  intros E. pose proof (znth_some _ _ _ E) as B. rewrite znth_nth_error in E by lia. replace (Z.to_nat (i + 1)) with (S (Z.to_nat i)) by lia.
  revert E. generalize (Z.to_nat i) as k. clear. intros k. revert l. induction k as [|k IH]; intros [|y l] E; try discriminate; cbn in *.
  - inversion E; reflexivity.
  - apply IH. exact E.
Qed.
Lemma sources_split fs k : forall m index left acc src m', 0 <= index ->
  parse_sources k fs m index left acc = Ok (src, m') ->
  exists new parts, m' = m ++ new /\ grown fs m new /\ src = acc ++ List.concat parts /\
    Forall2 (consists_of fs) (skipn (Z.to_nat index) m') parts /\
    (forall s, In s new -> exists s0 is name l, In (s0, is) (combine (skipn (Z.to_nat index) m') parts) /\ In (TImport name l) is /\ so_path s = imported_path s0 name) /\
    (forall s0 is name l, In (s0, is) (combine (skipn (Z.to_nat index) m') parts) -> In (TImport name l) is -> already m' (imported_path s0 name)).
Proof.
  induction k as [|k IH]; intros m index left acc src m' I0 E; cbn [parse_sources] in E;
    (destruct (znth m index) as [s|] eqn:Z0;
     [|inversion E; subst; exists [], []; rewrite !app_nil_r; split; [reflexivity|]; split; [apply grown_nil|]; split; [reflexivity|];
       assert (Sk : skipn (Z.to_nat index) m' = []);
       [apply skipn_all2; apply znth_none in Z0; unfold zlen in Z0; lia|];
       rewrite Sk; split; [constructor|]; split; [intros s0 []|intros s0 is name l []]]).
  - discriminate.
  - destruct (so_data s) as [text|] eqn:D; [|discriminate]. apply bind_ok in E. destruct E as (ts & L & E).
    apply bind_ok in E. destruct E as ([[is m1] st] & P & E). pose proof (items_loads _ _ _ _ _ _ _ _ P) as LD.
    destruct (loads_grown _ _ _ _ _ LD) as (new & -> & G & A & B).
    assert (IX : 0 <= index + 1) by lia. destruct (IH _ _ _ _ _ _ IX E) as (new2 & parts & -> & G2 & -> & F & A2 & B2).
    exists (new ++ new2), (is :: parts). rewrite app_assoc. split; [reflexivity|]. split; [now apply grown_app|]. split; [cbn [List.concat]; now rewrite app_assoc|].
    assert (Z1 : znth ((m ++ new) ++ new2) index = Some s).
    { rewrite <- app_assoc. rewrite znth_app1; [exact Z0|]. apply znth_some in Z0. lia. }
    rewrite (zskipn_nth _ _ _ Z1). cbn [combine]. split.
    { constructor; [|exact F]. exists index, text, ts, m, left, (m ++ new), st. auto. }
    split.
    + intros t I1. apply in_app_or in I1. destruct I1 as [I1|I1].
      * destruct (A t I1) as (name & l & I2 & E2). exists s, is, name, l. split; [left; reflexivity|auto].
      * destruct (A2 t I1) as (s0 & is0 & name & l & I2 & I3 & E2). exists s0, is0, name, l. split; [right; exact I2|auto].
    + intros s0 is0 name l [I1|I1] I2.
      * inversion I1; subst. apply already_mono. eauto.
      * eapply B2; eassumption.
Qed.

(** ** Termination *)
Section Closed.
  Variable fs : bytes -> option bytes.
  Variable m0 : list source_t.
  Variable paths : list bytes.
  Hypothesis data : Forall (fun s => so_data s <> None) m0.
  Hypothesis closed : forall s text file ts name, (In s m0 \/ (is_file fs s /\ In (so_path s) paths)) ->
    so_data s = Some text -> lex file text = Ok ts -> import_of ts name -> In (imported_path s name) paths.

  (** What is left besides an answer: what the lexer and the parser do on one of
      the sources. *)
  Definition front_ok (r : res (list item * list source_t)) : Prop :=
    match r with
    | Ok (_, m) => exists new, m = m0 ++ new /\ grown fs m0 new /\ incl (map so_path new) paths
    | Err _ _ => True
    | Stuck x => exists s text file, (In s m0 \/ (is_file fs s /\ In (so_path s) paths)) /\ so_data s = Some text /\
        (lex file text = Stuck x \/
         (x = SAssert /\ exists ts, lex file text = Ok ts /\ In TOK_IMPORT (map tk ts)))
    end.
  Lemma sources_end k : forall new index left acc, 0 <= index -> grown fs m0 new -> incl (map so_path new) paths ->
    (List.length m0 + List.length paths <= k + Z.to_nat index)%nat -> front_ok (parse_sources k fs (m0 ++ new) index left acc).
  Proof.
    induction k as [|k IH]; intros new index left acc I0 G IC L; cbn [parse_sources];
      destruct (znth (m0 ++ new) index) as [s|] eqn:Z0; try (exists new; auto; fail).
    - exfalso. apply znth_some in Z0. rewrite zlen_app in Z0. unfold zlen in Z0.
      pose proof (NoDup_incl_length (gr_once _ _ _ G) IC) as B. rewrite map_length in B. lia.
    - assert (KN : In s m0 \/ (is_file fs s /\ In (so_path s) paths)).
      { apply znth_In in Z0. apply in_app_or in Z0. destruct Z0 as [Z0|Z0]; [auto|]. right. split.
        - exact (proj1 (Forall_forall _ _) (gr_files _ _ _ G) _ Z0).
        - apply IC. now apply in_map. }
      assert (D : exists text, so_data s = Some text).
      { destruct KN as [KN|[KN _]].
        - pose proof (proj1 (Forall_forall _ _) data _ KN) as D. cbv beta in D. destruct (so_data s); [eauto|congruence].
        - destruct (load_file _ _ _ KN) as (_ & _ & d & _ & D). eauto. }
      destruct D as [text D]. rewrite D.
      destruct (lex index text) as [ts|e l|x] eqn:LX; cbn [bind]; [|exact Logic.I|].
      2:{ exists s, text, index. auto. }
      pose proof (C29_front_end fs s (m0 ++ new) left index text ts LX) as FE.
      destruct (parse fs s (m0 ++ new) left ts) as [[[is m1] st]|e l|x] eqn:P; cbn [bind]; [|exact Logic.I|].
      2:{ destruct FE as [-> FE]. exists s, text, index. split; [exact KN|]. split; [exact D|]. right. split; [reflexivity|]. eauto. }
      pose proof (items_loads _ _ _ _ _ _ _ _ P) as LD. destruct (loads_grown _ _ _ _ _ LD) as (new2 & -> & G2 & A & _).
      rewrite <- app_assoc. apply IH; [lia|now apply grown_app| |lia].
      intros p I1. rewrite map_app in I1. apply in_app_or in I1. destruct I1 as [I1|I1]; [auto|].
      apply in_map_iff in I1. destruct I1 as (t & <- & I1). destruct (A t I1) as (name & l & I2 & ->).
      eapply closed; [exact KN|exact D|exact LX|]. eapply parse_imports; [exact P|exact I2].
  Qed.
End Closed.
