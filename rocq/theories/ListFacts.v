(** The listing of a generated program. *)
From Coq Require Import ZArith List Bool Lia String ZifyBool.
From Verif Require Import Base BaseFacts Instr InstrSpec InstrProofs Program Source Lexer Ast Parser Sema Optimize
  Codegen Build VM VmSpec Tools ToolSpec CgSpec CgCode CgLayout CgOps CgSlots CgSim CgLink CgFlow CompileSpec CompileFacts.
Import ListNotations.
Open Scope Z_scope.

Lemma find_index_at {A} (f : A -> bool) l : forall k i x, znth l i = Some x -> f x = true ->
  (forall j y, znth l j = Some y -> f y = true -> j = i) -> find_index f l k = Some (k + i, x).
Proof.
  induction l as [|a l IH]; intros k i x Zi Fx U; [discriminate Zi|].
  cbn [find_index]. destruct (f a) eqn:Fa.
  - assert (Z0 : znth (a :: l) 0 = Some a) by reflexivity. pose proof (U _ _ Z0 Fa) as <-. rewrite Z0 in Zi. inversion Zi. rewrite Z.add_0_r. reflexivity.
  - destruct (Z.eq_dec i 0) as [->|N]; [cbn in Zi; inversion Zi; congruence|].
    pose proof (znth_some _ _ _ Zi) as R. rewrite zlen_cons in R.
    assert (S : forall j, 0 <= j -> znth (a :: l) (j + 1) = znth l j).
    { intros j J. rewrite !znth_nth_error by lia. replace (Z.to_nat (j + 1)) with (Datatypes.S (Z.to_nat j)) by lia. reflexivity. }
    rewrite (IH (k + 1) (i - 1) x); [do 2 f_equal; lia| |exact Fx|].
    + rewrite <- S by lia. replace (i - 1 + 1) with i by lia. exact Zi.
    + intros j y Zj Fy. pose proof (znth_some _ _ _ Zj) as Rj. rewrite <- S in Zj by lia. specialize (U _ _ Zj Fy). lia.
Qed.

(** The code of one instruction is listed. *)
Lemma list_step k prog x rest offs func line i f : ins_wf x -> 0 <= offs -> offs + ins_len (ins_op x) <= i32_max ->
  function_index prog offs = Some (i, f) ->
  list_code (Datatypes.S k) prog (enc x ++ rest) offs func line =
  (let loc := l_line (Program.get_line prog offs) in
   r <- list_code k prog rest (offs + ins_len (ins_op x)) (Some i) loc ;;
   Ok ((if match func with Some j => i =? j | None => false end then []
        else (if offs =? 0 then [] else one_line []) ++ one_line (bs "# function: " ++ cstr (f_name f))) ++
       (if loc =? line then [] else one_line (bs "# line: " ++ dec loc)) ++ one_line (text x) ++ r)).
Proof.
  intros W O L Fi. assert (exists b, emit x = Ok b) as (b & B) by (apply emit_ok_iff; destruct x; cbn [ins_wf] in W; tauto).
  pose proof (emit_len x b B) as Lb. unfold enc. rewrite B.
  assert (Lx : zlen b = ins_len (ins_op x)) by (rewrite Lb; reflexivity).
  assert (P : 1 <= zlen b) by (rewrite Lx; unfold ins_len; destruct (ins_op x); cbn; lia).
  destruct b as [|c b]; [rewrite zlen_nil in P; lia|]. cbn [app list_code].
  change (c :: b ++ rest) with ((c :: b) ++ rest). rewrite (disasm_emit x _ rest W B). cbn [bind].
  unfold assert_. replace (0 <? zlen (c :: b)) with true by lia. cbn [bind]. rewrite Fi, zskipn_app, Lx.
  assert (I : in_i32 (offs + ins_len (ins_op x)) = true) by (unfold in_i32, i32_min, i32_max in *; lia).
  rewrite I. cbv zeta.
  destruct (list_code k prog rest (offs + ins_len (ins_op x)) (Some i) (l_line (Program.get_line prog offs))) as [r|?|?]; cbn [bind]; try reflexivity.
  f_equal. unfold one_line, nl. destruct (match func with Some j => i =? j | None => false end), (offs =? 0), (_ =? line);
    cbn [app]; rewrite <- ?app_assoc; reflexivity.
Qed.

(** The code of a piece of a function. *)
Lemma list_piece prog fa f i : znth (p_functions prog) i = Some f ->
  (forall j g, znth (p_functions prog) j = Some g -> j = i \/ f_end f <= f_start g \/ f_end g <= f_start f) ->
  4 < zlen (p_code prog) -> f_end f <= i32_max ->
  forall l a line rest k, code_at prog fa a l -> f_start f <= a -> a + clen l = f_end f -> 
  (List.length (code_of fa l ++ rest) <= k)%nat ->
  exists t shown k', body prog (f_end f) a line t shown /\ (List.length rest <= k')%nat /\
    list_code k prog (code_of fa l ++ rest) a (Some i) line =
    (r <- list_code k' prog rest (f_end f) (Some i) shown ;; Ok (t ++ r)).
Proof.
  intros Zi U QL FE. induction l as [|x l IH]; intros a line rest k C Sa Ea K.
  - exists [], line, k. rewrite clen_nil, Z.add_0_r in Ea. subst a. split; [constructor|]. split; [exact K|]. cbn [code_of flat_map app].
    destruct (list_code k prog rest (f_end f) (Some i) line); reflexivity.
  - pose proof (code_in prog fa QL a [] x l C) as [A W]. rewrite clen_nil, Z.add_0_r in A.
    pose proof (code_at_cons _ _ _ _ _ C) as [_ C2]. rewrite clen_cons in Ea.
    pose proof (swidth_len fa x W) as Sw. pose proof (clen_nonneg l) as Cl.
    assert (Pw : 1 <= swidth x) by (apply (swidth_pos fa); exact W).
    assert (Fx : function_index prog a = Some (i, f)).
    { unfold function_index. rewrite (find_index_at _ _ 0 i f Zi); [reflexivity|lia|]. intros j g Zj Hg. destruct (U j g Zj) as [E|E]; [exact E|lia]. }
    destruct k as [|k].
    { exfalso. unfold code_of in K. cbn [flat_map] in K. rewrite !app_length in K. pose proof (zlen_sbytes fa x) as L. unfold zlen in L. lia. }
    unfold code_of. cbn [flat_map]. fold (code_of fa l). rewrite <- app_assoc. unfold sbytes at 1.
    rewrite (list_step k prog (linked_ins fa x) (code_of fa l ++ rest) a (Some i) line i f W); [|destruct A; lia|rewrite <- Sw; lia|exact Fx].
    cbv zeta. rewrite <- Sw. set (loc := l_line (Program.get_line prog a)).
    destruct (IH (a + swidth x) loc rest k C2) as (t & shown & k' & B & K' & E); [lia|lia| |].
    { unfold code_of in K. cbn [flat_map] in K. fold (code_of fa l) in K. rewrite !app_length in *. pose proof (zlen_sbytes fa x) as L. unfold zlen in L. lia. }
    rewrite E, Z.eqb_refl.
    exists ((if loc =? line then [] else one_line (bs "# line: " ++ dec loc)) ++ one_line (text (linked_ins fa x)) ++ t), shown, k'.
    split; [|split; [exact K'|]].
    + apply body_ins; [exact A|rewrite <- Sw; lia|]. rewrite <- Sw. exact B.
    + destruct (list_code k' prog rest (f_end f) (Some i) shown); cbn [bind app]; [|reflexivity|reflexivity]. rewrite <- !app_assoc. reflexivity.
Qed.

(** Entering another function. *)
Lemma list_enter prog i f func a line : function_index prog a = Some (i, f) -> (forall j, func = Some j -> j <> i) ->
  forall k p, p <> [] -> list_code k prog p a func line =
  (r <- list_code k prog p a (Some i) line ;;
   Ok ((if a =? 0 then [] else one_line []) ++ one_line (bs "# function: " ++ cstr (f_name f)) ++ r)).
Proof.
  intros Fx N k p Np. destruct p as [|c p]; [congruence|]. destruct k as [|k]; [reflexivity|]. cbn [list_code].
  destruct (disasm (c :: p)) as [[out n]|?|?]; cbn [bind]; try reflexivity.
  destruct (assert_ (0 <? n)) as [?|?|?]; cbn [bind]; try reflexivity. rewrite Fx, Z.eqb_refl.
  replace (match func with Some j => i =? j | None => false end) with false by (destruct func as [j|]; [specialize (N j eq_refl); lia|reflexivity]).
  destruct (in_i32 (a + n)); [|reflexivity].
  destruct (list_code k prog (zskipn n (c :: p)) (a + n) (Some i) (l_line (Program.get_line prog a))) as [r|?|?]; cbn [bind]; try reflexivity.
  f_equal. unfold one_line, nl. destruct (a =? 0); cbn [app]; rewrite <- ?app_assoc; reflexivity.
Qed.

Lemma list_layout prog fa m sizes sx ng : 4 < zlen (p_code prog) -> zlen (p_code prog) <= i32_max ->
  forall items base k pre codepre func line fuel,
  let lay := layout m sizes sx ng items base k in
  p_functions prog = pre ++ map (placed_function m sizes sx ng) lay ->
  p_code prog = codepre ++ code_of fa (flat_map (pl_code m sizes sx ng) lay) -> zlen codepre = base ->
  Forall (fun g => f_start g < f_end g /\ f_end g <= base) pre -> (forall j, func = Some j -> j < zlen pre) ->
  (forall p, In p lay -> Forall (fun x => ins_wf (linked_ins fa x)) (pl_code m sizes sx ng p)) ->
  (List.length (code_of fa (flat_map (pl_code m sizes sx ng) lay)) <= fuel)%nat ->
  exists t, list_code fuel prog (code_of fa (flat_map (pl_code m sizes sx ng) lay)) base func line = Ok t /\
    sections prog (map (placed_function m sizes sx ng) lay) base line t.
Proof.
  intros QL QM. induction items as [|it items IH]; intros base k pre codepre func line fuel lay Ef Ec Eb Fp Fn Wf K.
  - exists []. cbn [lay layout flat_map code_of map] in *. split; [destruct fuel; reflexivity|]. rewrite app_nil_r in Ec. rewrite <- Ec in Eb. rewrite <- Eb. constructor.
  - assert (SK : lay = layout m sizes sx ng items base k ->  exists t, list_code fuel prog (code_of fa (flat_map (pl_code m sizes sx ng) lay)) base func line = Ok t /\
      sections prog (map (placed_function m sizes sx ng) lay) base line t).
    { intros E. rewrite E in *. apply IH with (pre := pre) (codepre := codepre); assumption. }
    destruct it as [s|v e|f args bd lend]; [apply SK; reflexivity|apply SK; reflexivity|]. clear SK.
    cbn [layout] in lay. set (p := Place f args bd base k) in *. set (cp := pl_code m sizes sx ng p) in *.
    set (lay' := layout m sizes sx ng items (base + clen cp) (k + zlen (flat_map sstrs bd))) in *.
    subst lay. cbn [flat_map map] in *. fold cp in Ec, K |- *. rewrite code_of_app in *. set (rest := code_of fa (flat_map (pl_code m sizes sx ng) lay')) in *.
    set (F := placed_function m sizes sx ng p) in *.
    assert (FS : f_start F = base) by reflexivity. assert (FE : f_end F = base + clen cp) by reflexivity.
    assert (Pc : 1 <= clen cp) by (apply (cfunc_pos m sizes sx ng f args bd base k)).
    assert (Zi : znth (p_functions prog) (zlen pre) = Some F).
    { rewrite Ef, znth_nth_error by apply zlen_nonneg. unfold zlen. rewrite Nat2Z.id, nth_error_app2, Nat.sub_diag by lia. reflexivity. }
    assert (After : forall g, In g (map (placed_function m sizes sx ng) lay') -> f_end F <= f_start g).
    { intros g I. apply in_map_iff in I. destruct I as (p' & <- & I). apply layout_after in I. cbn [placed_function f_start]. lia. }
    assert (U : forall j g, znth (p_functions prog) j = Some g -> j = zlen pre \/ f_end F <= f_start g \/ f_end g <= f_start F).
    { intros j g Zj. pose proof (znth_some _ _ _ Zj) as [J0 _]. rewrite Ef, znth_nth_error in Zj by exact J0.
      destruct (Z.lt_ge_cases j (zlen pre)) as [L|L].
      - rewrite nth_error_app1 in Zj by (unfold zlen in L; lia). apply nth_error_In in Zj. rewrite Forall_forall in Fp. apply Fp in Zj. lia.
      - destruct (Z.eq_dec j (zlen pre)) as [E|E]; [left; exact E|]. right. left.
        rewrite nth_error_app2 in Zj by (unfold zlen in *; lia).
        destruct (Z.to_nat j - List.length pre)%nat as [|d] eqn:D; [unfold zlen in *; lia|]. cbn [nth_error] in Zj. apply nth_error_In in Zj. auto. }
    assert (Len : zlen (p_code prog) = base + clen cp + zlen rest) by (rewrite Ec, !zlen_app, zlen_code_of, Eb; lia).
    assert (C : code_at prog fa base cp).
    { split; [exists codepre, rest; auto|apply Wf; left; reflexivity]. }
    assert (Fx : function_index prog base = Some (zlen pre, F)).
    { unfold function_index. rewrite (find_index_at _ _ 0 (zlen pre) F Zi); [reflexivity|lia|]. intros j g Zj Hg. destruct (U j g Zj) as [E|E]; [exact E|lia]. }
    rewrite (list_enter prog (zlen pre) F func base line Fx); [|intros j E; specialize (Fn j E); lia|].
    2: { intros N. apply (f_equal (@zlen Z)) in N. rewrite zlen_app, zlen_code_of, zlen_nil in N. pose proof (zlen_nonneg rest). lia. }
    pose proof (zlen_nonneg rest) as Nr.
    destruct (list_piece prog fa F (zlen pre) Zi U QL) with (l := cp) (a := base) (line := line) (rest := rest) (k := fuel)
      as (t & shown & k' & B & K' & E); [lia|exact C|lia|lia|exact K|]. rewrite E.
    destruct (IH (base + clen cp) (k + zlen (flat_map sstrs bd)) (pre ++ [F]) (codepre ++ code_of fa cp) (Some (zlen pre)) shown k') as (t' & E' & S').
    + rewrite <- app_assoc. exact Ef.
    + rewrite <- app_assoc. exact Ec.
    + rewrite zlen_app, zlen_code_of. lia.
    + apply Forall_app. split; [eapply Forall_impl; [|exact Fp]; cbn beta; intros g []; split; lia|]. constructor; [lia|constructor].
    + intros j Ej. inversion Ej. rewrite zlen_app. change (zlen [F]) with 1. lia.
    + intros p' I. apply Wf. right. exact I.
    + exact K'.
    + fold lay' rest in E', S'. rewrite FE, E'. cbn [bind]. eexists. split; [reflexivity|]. rewrite <- FS.
      apply sections_more with (shown' := shown); [lia|rewrite FS; exact B|rewrite FE; exact S'].
Qed.

(** Every program the compiler produces. *)
Lemma generated_listing items n p : generate items n = Ok p -> program_ok items n -> fits p ->
  exists t, list_program p = Ok t /\ sections p (p_functions p) 0 (-1) t.
Proof.
  intros G P Fi. pose proof (bound_self p) as Bo. pose proof (made items n p p G P Bo) as M.
  pose proof (q_len items n p p G P Bo) as QL.
  set (fa := fun f => address p (fd_name f)).
  assert (Ec : p_code p = code_of fa (flat_map (g_code_of items n (sys_index p)) (g_layout items n (sys_index p)))) by exact (q_code items n p p G P Bo).
  unfold list_program.
  destruct (list_layout p fa (g_slots items n) (g_sizes items n) (sys_index p) (g_ng items n) QL (fi_code _ Fi) (g_items items n) 0 0 [] [] None (-1) (List.length (p_code p)))
    as (t & E & S).
  - exact (gd_funs _ _ _ _ M).
  - exact Ec.
  - reflexivity.
  - constructor.
  - discriminate.
  - intros pl I. apply (place_code_at items n p p G P Fi Bo pl I).
  - rewrite Ec. apply Nat.le_refl.
  - exists t. split; [eapply eq_trans; [|exact E]; f_equal; exact Ec|]. rewrite (gd_funs _ _ _ _ M). exact S.
Qed.
