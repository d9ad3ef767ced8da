(** Specification: the meaning of a resolved program, as an interpreter on the
    syntax tree.  It knows nothing of bytecode, stacks, slots or offsets:
    variables are found by their declaration, blocks introduce variables and
    drop them, functions have their own variables.  Values live in the ideal
    heap of [AbsHeap.v] and the operators are those of the language
    ([op_add] etc. in [VM.v], characterised by C43-C47).

    The interpreter takes a bound on the depth of the recursion; [Timeout] says
    that the bound was too small.  What the language leaves undefined (signed
    overflow, failed assertions, reading a variable that was never given a value)
    is [Undefined]. *)
From Coq Require Import ZArith List Bool String.
From Verif Require Import Base F32 Program VM AbsHeap Ast Sema.
Import ListNotations.
Open Scope Z_scope.

(** What a running program can change: arrays, global variables, the outside
    world and the threads it has started. *)
Record sst : Type := St {
  s_heap : aheap;
  s_glob : list (nat * aval);
  s_world : world;
  s_new : list (thread aval)
}.

Inductive outcome (A : Type) : Type :=
| Done (a : A)
| Error (e : terr) (st : sst)
| Undefined
| Timeout.
Arguments Done {A}. Arguments Error {A}. Arguments Undefined {A}. Arguments Timeout {A}.

Definition obind {A B} (m : outcome A) (k : A -> outcome B) : outcome B :=
  match m with
  | Done a => k a
  | Error e st => Error e st
  | Undefined => Undefined
  | Timeout => Timeout
  end.
Notation "'let*' p := m 'in' k" := (obind m (fun p => k))
  (at level 200, p pattern, m at level 100, right associativity).

(** The variables of one activation of a function: its arguments, and the local
    variables in scope, newest first.  [None] is a variable that has been
    declared but not given a value. *)
Record env : Type := Env {
  v_args : list (nat * aval);
  v_locals : list (nat * option aval)
}.

Fixpoint lookup {A} (l : list (nat * A)) (id : nat) : option A :=
  match l with
  | [] => None
  | (i, v) :: t => if Nat.eqb i id then Some v else lookup t id
  end.
Fixpoint update {A} (l : list (nat * A)) (id : nat) (v : A) : list (nat * A) :=
  match l with
  | [] => []
  | (i, x) :: t => if Nat.eqb i id then (i, v) :: t else (i, x) :: update t id v
  end.

Definition read (d : vdecl) (r : env) (st : sst) : outcome aval :=
  if vd_const d then Undefined else
  match match vd_kind d with
        | KLocal => match lookup (v_locals r) (vd_id d) with Some o => o | None => None end
        | KArg => lookup (v_args r) (vd_id d)
        | KGlobal => lookup (s_glob st) (vd_id d)
        end with
  | Some v => Done v
  | None => Undefined
  end.

Definition with_glob (st : sst) (g : list (nat * aval)) : sst :=
  St (s_heap st) g (s_world st) (s_new st).
Definition with_arrays (st : sst) (h : aheap) : sst :=
  St h (s_glob st) (s_world st) (s_new st).

Definition write (d : vdecl) (v : aval) (r : env) (st : sst) : outcome (env * sst) :=
  if vd_const d then Undefined else
  match vd_kind d with
  | KLocal => match lookup (v_locals r) (vd_id d) with
              | Some _ => Done (Env (v_args r) (update (v_locals r) (vd_id d) (Some v)), st)
              | None => Undefined
              end
  | KArg => match lookup (v_args r) (vd_id d) with
            | Some _ => Done (Env (update (v_args r) (vd_id d) v) (v_locals r), st)
            | None => Undefined
            end
  | KGlobal => match lookup (s_glob st) (vd_id d) with
               | Some _ => Done (r, with_glob st (update (s_glob st) (vd_id d) v))
               | None => Undefined
               end
  end.

Definition look (st : sst) (v : aval) : outcome (view aval) :=
  match abs_view (s_heap st) v with Ok w => Done w | _ => Undefined end.

(** ** Operators *)
Definition binary (o : Ast.binop) : pv -> pv -> res oc :=
  match o with
  | BAdd => op_add | BSub => op_sub | BMul => op_mul | BDiv => op_div | BMod => op_mod
  | BAnd => op_and | BOr => op_or | BEq => op_eq
  | BLt => op_lt | BGt => op_gt | BLeq => op_leq | BGeq => op_geq
  end.
Definition unary (o : Ast.unop) : pv -> res oc :=
  match o with UNeg => op_neg | UNot => op_not end.
Definition answer (r : res oc) (st : sst) : outcome (aval * sst) :=
  match r with
  | Ok (OPush c) => Done (AS c, st)
  | Ok (ORaise e) => Error e st
  | _ => Undefined
  end.
Definition apply2 (o : Ast.binop) (a b : aval) (st : sst) : outcome (aval * sst) :=
  let* wb := look st b in let* wa := look st a in answer (binary o (plain wa) (plain wb)) st.
Definition apply1 (o : Ast.unop) (a : aval) (st : sst) : outcome (aval * sst) :=
  let* wa := look st a in answer (unary o (plain wa)) st.
Definition truth (v : aval) (st : sst) : outcome bool :=
  let* w := look st v in Done (as_bool (plain w)).

(** [a[i]] *)
Definition element (a i : aval) (st : sst) : outcome (aval * sst) :=
  let* w := look st a in
  match w with
  | WNone => Error e_bad_array_object st
  | WA l =>
      match i with
      | AS (SInt k) => match znth l k with
                       | Some v => Done (v, st)
                       | None => Error e_bad_array_bounds st
                       end
      | _ => let* _ := look st i in Error e_bad_array_index st
      end
  | WS c =>
      match i with
      | AS (SInt k) =>
          match c with
          | SStr s => match znth s k with
                      | Some x => Done (AS (SInt x), st)
                      | None => Error e_bad_array_bounds st
                      end
          | _ => Error e_bad_type_operation st
          end
      | _ => let* _ := look st i in Error e_bad_array_index st
      end
  end.

(** [a[i] = v] *)
Definition set_element (a i v : aval) (st : sst) : outcome sst :=
  let* w := look st a in
  match a, w with
  | AArr loc, WA l =>
      match i with
      | AS (SInt k) =>
          if (0 <=? k) && (k <? zlen l) then
            let* _ := look st v in
            Done (with_arrays st (zupd (s_heap st) loc (zupd l k v)))
          else Error e_bad_array_bounds st
      | _ => let* _ := look st i in Error e_bad_array_index st
      end
  | _, _ => Error e_bad_array_object st
  end.

(** [a.x]: arrays have a length, nothing else has members *)
Definition member (a : aval) (x : bytes) (st : sst) : outcome (aval * sst) :=
  let* w := look st a in
  match w with
  | WA l => if bytes_eqb x (bs "length") then Done (AS (SInt (zlen l)), st)
            else Error e_bad_member_access st
  | _ => Error e_bad_member_access st
  end.

Definition new_array (l : list aval) (st : sst) : aval * sst :=
  (AArr (zlen (s_heap st)), with_arrays st (s_heap st ++ [l])).

(** ** Programs *)
Section Program.
  Variable items : list ritem.
  (** How function values and syscall values are represented, and what the
      syscalls do. *)
  Variable faddr : nat -> Z.
  Variable sidx : bytes -> Z.
  Variable sys : Z -> list aval -> sst -> outcome (aval * sst).

  Definition funct (i : ritem) : list (fdecl * list vdecl * list rstmt) :=
    match i with RFunc f args body _ => [(f, args, body)] | _ => [] end.
  Definition functs : list (fdecl * list vdecl * list rstmt) := flat_map funct items.
  Definition by_id (id : nat) := find (fun x => Nat.eqb (fd_id (fst (fst x))) id) functs.
  Definition by_addr (a : Z) := find (fun x => faddr (fd_id (fst (fst x))) =? a) functs.

  (** the variables left after a block that was entered with [r0] *)
  Definition leave_block (r0 r : env) : env :=
    Env (v_args r)
        (skipn (List.length (v_locals r) - List.length (v_locals r0)) (v_locals r)).

  Fixpoint run_expr (n : nat) (r : env) (e : rexpr) (st : sst) {struct n} : outcome (aval * sst) :=
    match n with
    | O => Timeout
    | S n =>
        match e with
        | RInt _ v _ => Done (AS (SInt v), st)
        | RFloat f _ => Done (AS (SFlt f), st)
        | RStr s _ => Done (AS (SStr s), st)
        | RNone _ => Done (ANone, st)
        | RIdent (DV d) _ => let* v := read d r st in Done (v, st)
        | RIdent (DF f) _ =>
            Done (AS (if fd_sys f then SSys (sidx (fd_name f)) else SFun (faddr (fd_id f))), st)
        | RMember d _ x _ => let* a := read d r st in member a x st
        | RArray _ es =>
            let* (vs, st1) := run_exprs n r es st in
            match es with [] => Undefined | _ => Done (new_array vs st1) end
        | RIndex _ a i =>
            let* (iv, st1) := run_expr n r i st in
            let* (av, st2) := run_expr n r a st1 in
            element av iv st2
        | RCall _ f es =>
            let* (vs, st1) := run_exprs n r es st in
            match f with
            | RIdent (DF fd) _ =>
                if fd_sys fd then sys (sidx (fd_name fd)) vs st1
                else match by_id (fd_id fd) with
                     | Some x => run_call n x vs st1
                     | None => Undefined
                     end
            | _ =>
                let* (fv, st2) := run_expr n r f st1 in
                match fv with
                | AS (SSys i) => sys i vs st2
                | AS (SFun a) =>
                    match by_addr a with
                    | Some x => if zlen (snd (fst x)) =? zlen vs then run_call n x vs st2
                                else Error e_bad_num_args st2
                    | None => Undefined
                    end
                | ANone => Undefined
                | _ => let* _ := look st2 fv in Error e_bad_type_operation st2
                end
            end
        | RBin o _ a b =>
            let* (x, st1) := run_expr n r a st in
            let* (y, st2) := run_expr n r b st1 in
            apply2 o x y st2
        | RUn o _ a => let* (x, st1) := run_expr n r a st in apply1 o x st1
        end
    end
  (** left to right *)
  with run_exprs (n : nat) (r : env) (es : list rexpr) (st : sst) {struct n}
    : outcome (list aval * sst) :=
    match n with
    | O => Timeout
    | S n =>
        match es with
        | [] => Done ([], st)
        | e :: t =>
            let* (v, st1) := run_expr n r e st in
            let* (vs, st2) := run_exprs n r t st1 in
            Done (v :: vs, st2)
        end
    end
  (** a function: 0 is returned at the end of the body *)
  with run_call (n : nat) (x : fdecl * list vdecl * list rstmt) (vs : list aval) (st : sst) {struct n}
    : outcome (aval * sst) :=
    match n with
    | O => Timeout
    | S n =>
        let '(_, args, body) := x in
        if zlen args =? zlen vs then
          let* (o, _, st1) := run_stmts n (Env (combine (map vd_id args) vs) []) body st in
          match o with Some v => Done (v, st1) | None => Done (AS (SInt 0), st1) end
        else Undefined
    end
  (** a statement: [Some v] when it returns *)
  with run_stmt (n : nat) (r : env) (s : rstmt) (st : sst) {struct n}
    : outcome (option aval * env * sst) :=
    match n with
    | O => Timeout
    | S n =>
        match s with
        | RVar d oe =>
            match vd_kind d, vd_const d with
            | KLocal, false =>
                match oe with
                | None => Done (None, Env (v_args r) ((vd_id d, None) :: v_locals r), st)
                | Some e =>
                    let* (v, st1) := run_expr n r e st in
                    Done (None, Env (v_args r) ((vd_id d, Some v) :: v_locals r), st1)
                end
            | _, _ => Undefined
            end
        | RAssign d _ e =>
            let* (v, st1) := run_expr n r e st in
            let* (r1, st2) := write d v r st1 in Done (None, r1, st2)
        | RSetMem d _ _ _ e =>
            let* (_, st1) := run_expr n r e st in
            let* _ := read d r st1 in Error e_bad_member_access st1
        | RSetIdx d _ i e =>
            let* (v, st1) := run_expr n r e st in
            let* (iv, st2) := run_expr n r i st1 in
            let* a := read d r st2 in
            let* st3 := set_element a iv v st2 in Done (None, r, st3)
        | RCallS l f es =>
            let* (_, st1) := run_expr n r (RCall l f es) st in Done (None, r, st1)
        | RIf _ c t f =>
            let* (v, st1) := run_expr n r c st in
            let* b := truth v st1 in
            run_block n r (if b then t else f) st1
        | RWhile _ c b =>
            let* (v, st1) := run_expr n r c st in
            let* go := truth v st1 in
            if go then
              let* (o, r1, st2) := run_block n r b st1 in
              match o with
              | Some v => Done (Some v, r1, st2)
              | None => run_stmt n r1 s st2
              end
            else Done (None, r, st1)
        | RFor _ d _ a b body =>
            let* (v, st1) := run_expr n r a st in
            let* (r1, st2) := write d v r st1 in
            run_for n r1 d b body st2
        | RReturn _ None => Done (Some ANone, r, st)
        | RReturn _ (Some e) => let* (v, st1) := run_expr n r e st in Done (Some v, r, st1)
        end
    end
  with run_stmts (n : nat) (r : env) (b : list rstmt) (st : sst) {struct n}
    : outcome (option aval * env * sst) :=
    match n with
    | O => Timeout
    | S n =>
        match b with
        | [] => Done (None, r, st)
        | s :: t =>
            let* (o, r1, st1) := run_stmt n r s st in
            match o with
            | Some v => Done (Some v, r1, st1)
            | None => run_stmts n r1 t st1
            end
        end
    end
  (** a block, which may be missing *)
  with run_block (n : nat) (r : env) (o : option (list rstmt)) (st : sst) {struct n}
    : outcome (option aval * env * sst) :=
    match n with
    | O => Timeout
    | S n =>
        match o with
        | None => Done (None, r, st)
        | Some b =>
            let* (o, r1, st1) := run_stmts n r b st in Done (o, leave_block r r1, st1)
        end
    end
  (** for: the limit is evaluated again in every round *)
  with run_for (n : nat) (r : env) (d : vdecl) (limit : rexpr) (body : list rstmt) (st : sst) {struct n}
    : outcome (option aval * env * sst) :=
    match n with
    | O => Timeout
    | S n =>
        let* i := read d r st in
        let* (m, st1) := run_expr n r limit st in
        let* (t, st2) := apply2 BLt i m st1 in
        let* go := truth t st2 in
        if go then
          let* (o, r1, st3) := run_block n r (Some body) st2 in
          match o with
          | Some v => Done (Some v, r1, st3)
          | None =>
              let* i1 := read d r1 st3 in
              let* (i2, st4) := apply2 BAdd i1 (AS (SInt 1)) st3 in
              let* (r2, st5) := write d i2 r1 st4 in
              run_for n r2 d limit body st5
          end
        else Done (None, r, st2)
    end.

  (** Before anything else runs, the globals are none; then they are given their
      initial values in the order of the program text. *)
  Definition global_vars : list (nat * aval) :=
    flat_map (fun i => match i with
                       | RGlobal d _ => if vd_const d then [] else [(vd_id d, ANone)]
                       | _ => []
                       end) items.
  Fixpoint init_from (n : nat) (l : list ritem) (st : sst) : outcome sst :=
    match l with
    | [] => Done st
    | RGlobal d (Some e) :: t =>
        if vd_const d then init_from n t st else
        let* (v, st1) := run_expr n (Env [] []) e st in
        let* (_, st2) := write d v (Env [] []) st1 in
        init_from n t st2
    | _ :: t => init_from n t st
    end.
  Definition initial (n : nat) (st : sst) : outcome sst :=
    init_from n items (with_glob st global_vars).
End Program.

(** The syscalls of the virtual machine: run on a scratch thread whose stack
    holds the arguments and nothing else; exactly one value must be left. *)
Definition vm_sys (prog : program_t) (i : Z) (vs : list aval) (st : sst) : outcome (aval * sst) :=
  match do_syscall abs_ops prog i (zlen vs)
          (Mst (s_heap st) [] (s_world st) (s_new st) (t_set_stk fresh_thread (rev vs)) []) with
  | Ok (_, s) =>
      let st' := St (m_heap s) (s_glob st) (m_world s) (m_pre s) in
      match t_err (m_cur s), t_stk (m_cur s) with
      | Some e, _ => Error e st'
      | None, [v] => Done (v, st')
      | None, _ => Undefined
      end
  | _ => Undefined
  end.
