(** Equations of the interpreter. *)
From Coq Require Import ZArith List Bool String.
From Verif Require Import Base F32 Program VM AbsHeap Ast Sema SrcSem.
Import ListNotations.
Open Scope Z_scope.

Section Equations.
  Variable items : list ritem.
  Variable faddr : nat -> Z.
  Variable sidx : bytes -> Z.
  Variable sys : Z -> list aval -> sst -> outcome (aval * sst).
  Local Notation run_expr := (SrcSem.run_expr items faddr sidx sys).
  Local Notation run_exprs := (SrcSem.run_exprs items faddr sidx sys).
  Local Notation run_call := (SrcSem.run_call items faddr sidx sys).
  Local Notation run_stmt := (SrcSem.run_stmt items faddr sidx sys).
  Local Notation run_stmts := (SrcSem.run_stmts items faddr sidx sys).
  Local Notation run_block := (SrcSem.run_block items faddr sidx sys).
  Local Notation run_for := (SrcSem.run_for items faddr sidx sys).
  Local Notation by_id := (SrcSem.by_id items).
  Local Notation by_addr := (SrcSem.by_addr items faddr).

  Lemma run_expr_S (n : nat) (r : env) (e : rexpr) (st : sst) :
    run_expr (S n) r e st =

        match e with
        | RInt _ v _ => Done (AS (SInt v), st)
        | RFloat f _ => Done (AS (SFlt f), st)
        | RStr s _ => Done (AS (SStr s), st)
        | RNone _ => Done (ANone, st)
        | RIdent (DV d) _ => let* v := read d r st in Done (v, st)
        | RIdent (DF f) _ =>
            Done (AS (if fd_sys f then SSys (sidx (fd_name f)) else SFun (faddr (fd_id f))), st)
        | RMember d _ x _ => let* a := read d r st in member a x st
        | RArray _ es =>
            let* (vs, st1) := run_exprs n r es st in
            match es with [] => Undefined | _ => Done (new_array vs st1) end
        | RIndex _ a i =>
            let* (iv, st1) := run_expr n r i st in
            let* (av, st2) := run_expr n r a st1 in
            element av iv st2
        | RCall _ f es =>
            let* (vs, st1) := run_exprs n r es st in
            match f with
            | RIdent (DF fd) _ =>
                if fd_sys fd then sys (sidx (fd_name fd)) vs st1
                else match by_id (fd_id fd) with
                     | Some x => run_call n x vs st1
                     | None => Undefined
                     end
            | _ =>
                let* (fv, st2) := run_expr n r f st1 in
                match fv with
                | AS (SSys i) => sys i vs st2
                | AS (SFun a) =>
                    match by_addr a with
                    | Some x => if zlen (snd (fst x)) =? zlen vs then run_call n x vs st2
                                else Error e_bad_num_args st2
                    | None => Undefined
                    end
                | ANone => Undefined
                | _ => let* _ := look st2 fv in Error e_bad_type_operation st2
                end
            end
        | RBin o _ a b =>
            let* (x, st1) := run_expr n r a st in
            let* (y, st2) := run_expr n r b st1 in
            apply2 o x y st2
        | RUn o _ a => let* (x, st1) := run_expr n r a st in apply1 o x st1
        end.
  Proof. reflexivity. Qed.
  Lemma run_expr_O (r : env) (e : rexpr) (st : sst) : run_expr O r e st = Timeout.
  Proof. reflexivity. Qed.

  Lemma run_exprs_S (n : nat) (r : env) (es : list rexpr) (st : sst) :
    run_exprs (S n) r es st =

        match es with
        | [] => Done ([], st)
        | e :: t =>
            let* (v, st1) := run_expr n r e st in
            let* (vs, st2) := run_exprs n r t st1 in
            Done (v :: vs, st2)
        end.
  Proof. reflexivity. Qed.
  Lemma run_exprs_O (r : env) (es : list rexpr) (st : sst) : run_exprs O r es st = Timeout.
  Proof. reflexivity. Qed.

  Lemma run_call_S (n : nat) (x : fdecl * list vdecl * list rstmt) (vs : list aval) (st : sst) :
    run_call (S n) x vs st =

        let '(_, args, body) := x in
        if zlen args =? zlen vs then
          let* (o, _, st1) := run_stmts n (Env (combine (map vd_id args) vs) []) body st in
          match o with Some v => Done (v, st1) | None => Done (AS (SInt 0), st1) end
        else Undefined.
  Proof. reflexivity. Qed.
  Lemma run_call_O (x : fdecl * list vdecl * list rstmt) (vs : list aval) (st : sst) : run_call O x vs st = Timeout.
  Proof. reflexivity. Qed.

  Lemma run_stmt_S (n : nat) (r : env) (s : rstmt) (st : sst) :
    run_stmt (S n) r s st =

        match s with
        | RVar d oe =>
            match vd_kind d, vd_const d with
            | KLocal, false =>
                match oe with
                | None => Done (None, Env (v_args r) ((vd_id d, None) :: v_locals r), st)
                | Some e =>
                    let* (v, st1) := run_expr n r e st in
                    Done (None, Env (v_args r) ((vd_id d, Some v) :: v_locals r), st1)
                end
            | _, _ => Undefined
            end
        | RAssign d _ e =>
            let* (v, st1) := run_expr n r e st in
            let* (r1, st2) := write d v r st1 in Done (None, r1, st2)
        | RSetMem d _ _ _ e =>
            let* (_, st1) := run_expr n r e st in
            let* _ := read d r st1 in Error e_bad_member_access st1
        | RSetIdx d _ i e =>
            let* (v, st1) := run_expr n r e st in
            let* (iv, st2) := run_expr n r i st1 in
            let* a := read d r st2 in
            let* st3 := set_element a iv v st2 in Done (None, r, st3)
        | RCallS l f es =>
            let* (_, st1) := run_expr n r (RCall l f es) st in Done (None, r, st1)
        | RIf _ c t f =>
            let* (v, st1) := run_expr n r c st in
            let* b := truth v st1 in
            run_block n r (if b then t else f) st1
        | RWhile _ c b =>
            let* (v, st1) := run_expr n r c st in
            let* go := truth v st1 in
            if go then
              let* (o, r1, st2) := run_block n r b st1 in
              match o with
              | Some v => Done (Some v, r1, st2)
              | None => run_stmt n r1 s st2
              end
            else Done (None, r, st1)
        | RFor _ d _ a b body =>
            let* (v, st1) := run_expr n r a st in
            let* (r1, st2) := write d v r st1 in
            run_for n r1 d b body st2
        | RReturn _ None => Done (Some ANone, r, st)
        | RReturn _ (Some e) => let* (v, st1) := run_expr n r e st in Done (Some v, r, st1)
        end.
  Proof. reflexivity. Qed.
  Lemma run_stmt_O (r : env) (s : rstmt) (st : sst) : run_stmt O r s st = Timeout.
  Proof. reflexivity. Qed.

  Lemma run_stmts_S (n : nat) (r : env) (b : list rstmt) (st : sst) :
    run_stmts (S n) r b st =

        match b with
        | [] => Done (None, r, st)
        | s :: t =>
            let* (o, r1, st1) := run_stmt n r s st in
            match o with
            | Some v => Done (Some v, r1, st1)
            | None => run_stmts n r1 t st1
            end
        end.
  Proof. reflexivity. Qed.
  Lemma run_stmts_O (r : env) (b : list rstmt) (st : sst) : run_stmts O r b st = Timeout.
  Proof. reflexivity. Qed.

  Lemma run_block_S (n : nat) (r : env) (o : option (list rstmt)) (st : sst) :
    run_block (S n) r o st =

        match o with
        | None => Done (None, r, st)
        | Some b =>
            let* (o, r1, st1) := run_stmts n r b st in Done (o, leave_block r r1, st1)
        end.
  Proof. reflexivity. Qed.
  Lemma run_block_O (r : env) (o : option (list rstmt)) (st : sst) : run_block O r o st = Timeout.
  Proof. reflexivity. Qed.

  Lemma run_for_S (n : nat) (r : env) (d : vdecl) (limit : rexpr) (body : list rstmt) (st : sst) :
    run_for (S n) r d limit body st =

        let* i := read d r st in
        let* (m, st1) := run_expr n r limit st in
        let* (t, st2) := apply2 BLt i m st1 in
        let* go := truth t st2 in
        if go then
          let* (o, r1, st3) := run_block n r (Some body) st2 in
          match o with
          | Some v => Done (Some v, r1, st3)
          | None =>
              let* i1 := read d r1 st3 in
              let* (i2, st4) := apply2 BAdd i1 (AS (SInt 1)) st3 in
              let* (r2, st5) := write d i2 r1 st4 in
              run_for n r2 d limit body st5
          end
        else Done (None, r, st2).
  Proof. reflexivity. Qed.
  Lemma run_for_O (r : env) (d : vdecl) (limit : rexpr) (body : list rstmt) (st : sst) : run_for O r d limit body st = Timeout.
  Proof. reflexivity. Qed.
End Equations.
