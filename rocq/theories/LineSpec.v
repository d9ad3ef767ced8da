(** Vocabulary for the line table: which instructions a program is made of, in
    order, and the source line each of them reports. *)
From Coq Require Import ZArith List Bool.
From Verif Require Import Base F32 Instr InstrSpec Program VM AbsHeap VmSpec Ast Sema SemaSpec Codegen SrcSem CgSpec.
Import ListNotations.
Open Scope Z_scope.
Open Scope list_scope.

(** One instruction: its operation and the line it comes from, if any. *)
Definition note : Type := instr * option line_t.

(** Reading and writing a variable. *)
Definition reads (d : vdecl) : instr :=
  match vd_kind d with KGlobal => INS_GETG | _ => INS_GETV end.
Definition writes (d : vdecl) : instr :=
  match vd_kind d with KGlobal => INS_SETG | _ => INS_SETV end.

(** The instructions of an expression: operands first, then the operation on the
    line of its own token. *)
Definition operation (o : binop) : instr :=
  match o with
  | BAdd => INS_ADD | BSub => INS_SUB | BMul => INS_MUL | BDiv => INS_DIV | BMod => INS_MOD
  | BAnd => INS_AND | BOr => INS_OR | BEq => INS_EQ
  | BLt => INS_LT | BGt => INS_GT | BLeq => INS_LEQ | BGeq => INS_GEQ
  end.
Fixpoint expr_notes (e : rexpr) : list note :=
  match e with
  | RInt _ _ l => [(INS_NEW_INT, l)]
  | RFloat _ l => [(INS_NEW_FLT, Some l)]
  | RStr _ l => [(INS_NEW_STR, Some l)]
  | RNone l => [(INS_NEW_NONE, Some l)]
  | RIdent (DV d) l => [(reads d, Some l)]
  | RIdent (DF f) l => [(if fd_sys f then INS_NEW_SCALL else INS_NEW_FUNC, Some l)]
  | RMember d l _ lm => [(reads d, Some l); (INS_GETM, Some lm)]
  | RArray l es => flat_map expr_notes es ++ [(INS_ARY_INIT, Some l)]
  | RIndex l a i => expr_notes i ++ expr_notes a ++ [(INS_DEREF, Some l)]
  | RCall l f es =>
      flat_map expr_notes es ++
      match f with
      | RIdent (DF fd) lf => if fd_sys fd then [(INS_SCALL, Some lf)] else [(INS_CALL, Some l)]
      | _ => expr_notes f ++ [(INS_ICALL, Some l)]
      end
  | RBin o l a b => expr_notes a ++ expr_notes b ++ [(operation o, Some l)]
  | RUn o l a => expr_notes a ++ [(match o with UNeg => INS_NEG | UNot => INS_NOT end, Some l)]
  end.

(** Statements.  The jump over an else-part has no line. *)
Definition takes_slot (d : vdecl) : bool :=
  match vd_kind d with KLocal => negb (vd_const d) | _ => false end.
Fixpoint stmt_notes (x : rstmt) : list note :=
  let block o := match o with Some b => flat_map stmt_notes b | None => [] end in
  match x with
  | RVar d (Some e) => if takes_slot d then expr_notes e ++ [(INS_SETV, Some (vd_line d))] else []
  | RVar _ None => []
  | RAssign d l e => expr_notes e ++ [(writes d, Some l)]
  | RSetMem d l _ lm e => expr_notes e ++ [(reads d, Some l); (INS_SETM, Some lm)]
  | RSetIdx d l i e => expr_notes e ++ expr_notes i ++ [(reads d, Some l); (INS_SETA, Some l)]
  | RCallS l f es => expr_notes (RCall l f es) ++ [(INS_POP, Some l)]
  | RIf l c t f =>
      expr_notes c ++ [(INS_FJMP, Some l)] ++ block t ++
      match f with Some b => [(INS_JMP, None)] ++ flat_map stmt_notes b | None => [] end
  | RWhile l c b =>
      [(INS_JMP, Some l)] ++ block b ++ expr_notes c ++ [(INS_TJMP, Some l)]
  | RFor l d lx a b body =>
      expr_notes a ++ [(writes d, Some lx); (INS_JMP, Some l)] ++
      flat_map stmt_notes body ++
      [(reads d, Some l); (INS_NEW_INT, Some l); (INS_ADD, Some l); (writes d, Some l)] ++
      [(reads d, Some l)] ++ expr_notes b ++ [(INS_LT, Some l); (INS_TJMP, Some l)]
  | RReturn l oe =>
      match oe with Some e => expr_notes e | None => [(INS_NEW_NONE, Some l)] end ++ [(INS_RET, Some l)]
  end.

(** A function: room for its locals on the line of its name, its statements, and
    "return 0" on the line of its closing "end" unless it ends in a return. *)
Definition func_notes (f : fdecl) (body : list rstmt) (lend : line_t) : list note :=
  (if existsb takes_slot (decls_block body) then [(INS_LOCALS, fd_line f)] else []) ++
  flat_map stmt_notes body ++
  (if ends_in_return body then [] else [(INS_NEW_INT, Some lend); (INS_RET, Some lend)]).

(** The function that sets the globals: one assignment for each global that has a
    value; the rest of it has no line. *)
Definition init_notes (items : list ritem) : list note :=
  [(INS_GLOBALS, None)] ++
  flat_map (fun i => match i with
                     | RGlobal d (Some e) =>
                         if vd_const d then [] else expr_notes e ++ [(writes d, Some (vd_line d))]
                     | _ => []
                     end) items ++
  [(INS_NEW_INT, None); (INS_RET, None)].

(** From address [a] up to [b] the program holds these instructions and the line
    table answers these lines; an instruction without a line answers "no line". *)
Inductive listed (p : program_t) : Z -> list note -> Z -> Prop :=
| listed_end : forall a, listed p a [] a
| listed_ins : forall a x t l b,
    at_ins p a x -> get_line p a = match t with Some y => y | None => no_line end ->
    listed p (a + ins_len (ins_op x)) l b ->
    listed p a ((ins_op x, t) :: l) b.
