(** The output of the compiler's tools: the disassembly listing, the dump of the
    syntax tree, and the compiler's command line (comp/driver.cpp). *)
From Coq Require Import ZArith List Bool String.
From Verif Require Import Base F32 Instr Program Source Lexer Ast Parser Sema Optimize Codegen Build.
Import ListNotations.
Open Scope Z_scope.

Definition nl : bytes := [10].

(** ** The disassembler's listing *)

(** program_t::function_find(pc), lib_common/program.cpp:244-260, with the
    position in the vector: the pointer it returns stands for that position. *)
Fixpoint find_index {A} (f : A -> bool) (l : list A) (i : Z) : option (Z * A) :=
  match l with
  | [] => None
  | a :: r => if f a then Some (i, a) else find_index f r (i + 1)
  end.
Definition function_index (p : program_t) (pc : Z) : option (Z * function_t) :=
  find_index (fun f => (f_start f <=? pc) && (pc <? f_end f)) (p_functions p) 0.

(** disassembler_t::dump, lib_compiler/disassembler.cpp:132-164: [p] is what is
    left of the code, [offs] its offset, [func] and [line] the local variables.
    The result is what is written to the file.  [offs] is an int.  The text
    [out] of an instruction has no NUL, so that "%s" prints all of it. *)
Fixpoint list_code (fuel : nat) (prog : program_t) (p : bytes) (offs : Z) (func : option Z) (line : Z)
  : res bytes :=
  match p with
  | [] => Ok []
  | _ :: _ =>
      match fuel with
      | O => Stuck SDiverge
      | S k =>
          '(out, n) <- disasm p ;;
          _ <- assert_ (0 <? n) ;;
          match function_index prog offs with
          | None => Stuck SAssert
          | Some (i, f) =>
              let head :=
                if match func with Some j => i =? j | None => false end then []
                else (if offs =? 0 then [] else nl) ++ bs "# function: " ++ cstr (f_name f) ++ nl in
              let loc := l_line (Program.get_line prog offs) in
              let mark := if loc =? line then [] else bs "# line: " ++ dec loc ++ nl in
              if in_i32 (offs + n) then
                rest <- list_code k prog (zskipn n p) (offs + n) (Some i) loc ;;
                Ok (head ++ mark ++ out ++ nl ++ rest)
              else Stuck SOverflow
          end
      end
  end.
Definition list_program (prog : program_t) : res bytes :=
  list_code (List.length (p_code prog)) prog (p_code prog) 0 None (-1).

(** ** The syntax tree after a build

    ast_type_t, lib_compiler/ast.h:10-41, for the classes a tree can have. *)
Inductive ntype : Type :=
| N_program | N_ident | N_lit_float | N_lit_var | N_lit_str | N_none | N_block
| N_deref | N_call | N_bin_op | N_unary_op | N_array_init | N_member
| N_if | N_while | N_for | N_return | N_assign_var | N_assign_array | N_stmt_call
| N_assign_member | N_decl_func | N_decl_var.

(** gc_visitor_t, lib_compiler/ast.cpp:43-156: the classes of node that it
    records; the others are visited by ast_visitor_t, which goes through their
    children only. *)
Definition gc_records (t : ntype) : bool :=
  match t with
  | N_none | N_block | N_program | N_ident | N_member | N_lit_str | N_lit_var | N_lit_float
  | N_deref | N_stmt_call | N_call | N_bin_op | N_unary_op | N_if | N_while | N_for
  | N_return | N_assign_var | N_assign_array | N_decl_func | N_decl_var => true
  | N_array_init | N_assign_member => false
  end.

(** Reading a node of the tree after ast_t::gc (ast.cpp:158-170), which deletes
    every allocated node that was not recorded.  All nodes of the tree are
    visited, so that a node is deleted exactly when its class is not recorded.
    The program node is a member of ast_t and never deleted. *)
Definition reading {A} (t : ntype) (k : res A) : res A :=
  if gc_records t then k else Stuck SDangling.

(** ast_printer_t, lib_compiler/ast.h:765-937.  [d] is the size of the
    visitor's stack; [ff] is "%f" of the C library. *)
Section Printer.
  Variable ff : f32 -> bytes.

  Definition row (d : nat) (s : bytes) : bytes := List.concat (repeat (bs ".  ") d) ++ s ++ nl.
  Definition named (s : string) (x : bytes) : bytes := bs s ++ bs " {name: " ++ cstr x ++ bs "}".

  (** ast.h:821-841 *)
  Definition op_text (o : binop) : bytes :=
    match o with
    | BAdd => bs "+" | BSub => bs "-" | BMul => bs "*" | BDiv => bs "/" | BMod => bs "%"
    | BLt => bs "<" | BLeq => bs "<=" | BGt => bs ">" | BGeq => bs ">=" | BEq => bs "=="
    | BAnd => bs "and" | BOr => bs "or"
    end.

  (** for (auto *c : l) dispatch(c); *)
  Definition print_all {A} (f : A -> res bytes) :=
    fix go (l : list A) : res bytes :=
      match l with
      | [] => Ok []
      | a :: r => x <- f a ;; y <- go r ;; Ok (x ++ y)
      end.
  (** dispatch of a pointer that can be null *)
  Definition print_opt {A} (f : A -> res bytes) (o : option A) : res bytes :=
    match o with Some a => f a | None => Ok [] end.

  Fixpoint print_expr (d : nat) (e : rexpr) {struct e} : res bytes :=
    match e with
    | RIdent x _ => reading N_ident (Ok (row d (named "ast_exp_ident_t" (decl_name x))))
    | RMember x _ _ _ => reading N_member (Ok (row d (named "ast_exp_member_t" (vd_name x))))
    | RFloat f _ => reading N_lit_float (Ok (row d (bs "ast_exp_lit_var_t {value: " ++ ff f ++ bs "}")))
    | RInt _ v _ => reading N_lit_var (Ok (row d (bs "ast_exp_lit_var_t {value: " ++ dec v ++ bs "}")))
    | RStr s _ => reading N_lit_str (Ok (row d (bs "ast_exp_lit_str_t {value: " ++ cstr s ++ bs "}")))
    | RNone _ => reading N_none (Ok (row d (bs "ast_exp_none_t")))
    | RIndex _ a i => reading N_deref (
        x <- print_expr (S d) a ;; y <- print_expr (S d) i ;;
        Ok (row d (bs "ast_exp_deref_t") ++ x ++ y))
    | RCall _ f es => reading N_call (
        x <- print_all (print_expr (S d)) es ;; y <- print_expr (S d) f ;;
        Ok (row d (bs "ast_exp_call_t") ++ x ++ y))
    | RArray _ es => reading N_array_init (
        x <- print_all (print_expr (S d)) es ;; Ok (row d (bs "ast_exp_array_init_t") ++ x))
    | RBin o _ a b => reading N_bin_op (
        x <- print_expr (S d) a ;; y <- print_expr (S d) b ;;
        Ok (row d (bs "ast_exp_bin_op_t {op: " ++ op_text o ++ bs "}") ++ x ++ y))
    | RUn _ _ a => reading N_unary_op (
        x <- print_expr (S d) a ;; Ok (row d (bs "ast_exp_unary_op_t") ++ x))
    end.

  Fixpoint print_stmt (d : nat) (s : rstmt) {struct s} : res bytes :=
    (* dispatch of an ast_block_t *)
    let block (d : nat) (b : list rstmt) : res bytes :=
      reading N_block (x <- print_all (print_stmt (S d)) b ;; Ok (row d (bs "ast_block_t") ++ x)) in
    match s with
    | RVar v e => reading N_decl_var (
        x <- print_opt (print_expr (S d)) e ;; Ok (row d (named "ast_decl_var_t" (vd_name v)) ++ x))
    | RAssign v _ e => reading N_assign_var (
        x <- print_expr (S d) e ;; Ok (row d (named "ast_stmt_assign_var_t" (vd_name v)) ++ x))
    | RSetMem _ _ _ _ e => reading N_assign_member (
        x <- print_expr (S d) e ;; Ok (row d (bs "ast_stmt_assign_member_t") ++ x))
    | RSetIdx _ _ i e => reading N_assign_array (
        x <- print_expr (S d) i ;; y <- print_expr (S d) e ;;
        Ok (row d (bs "ast_stmt_assign_array_t") ++ x ++ y))
    | RCallS l f es => reading N_stmt_call (
        x <- print_expr (S d) (RCall l f es) ;; Ok (row d (bs "ast_stmt_call_t") ++ x))
    | RIf _ c t f => reading N_if (
        x <- print_expr (S d) c ;; y <- print_opt (block (S d)) t ;; z <- print_opt (block (S d)) f ;;
        Ok (row d (bs "ast_stmt_if_t") ++ x ++ y ++ z))
    | RWhile _ c b => reading N_while (
        x <- print_expr (S d) c ;; y <- print_opt (block (S d)) b ;;
        Ok (row d (bs "ast_stmt_while_t") ++ x ++ y))
    | RFor _ v _ a b body => reading N_for (
        x <- print_expr (S d) a ;; y <- print_expr (S d) b ;; z <- block (S d) body ;;
        Ok (row d (bs "ast_stmt_for_t {name=" ++ cstr (vd_name v) ++ bs "}") ++ x ++ y ++ z))
    | RReturn _ e => reading N_return (
        x <- print_opt (print_expr (S d)) e ;; Ok (row d (bs "ast_stmt_return_t") ++ x))
    end.
  Definition print_block (d : nat) (b : list rstmt) : res bytes :=
    reading N_block (x <- print_all (print_stmt (S d)) b ;; Ok (row d (bs "ast_block_t") ++ x)).

  (** A child of the program node.  The arguments of a syscall are null pointers
      and it has no body (nano.cpp:88-103). *)
  Definition print_item (d : nat) (i : ritem) : res bytes :=
    match i with
    | RSys f => reading N_decl_func (Ok (row d (named "ast_decl_func_t" (fd_name f))))
    | RGlobal v e => reading N_decl_var (
        x <- print_opt (print_expr (S d)) e ;; Ok (row d (named "ast_decl_var_t" (vd_name v)) ++ x))
    | RFunc f args body _ => reading N_decl_func (
        x <- print_all (fun v => reading N_decl_var (Ok (row (S d) (named "ast_decl_var_t" (vd_name v))))) args ;;
        y <- print_block (S d) body ;;
        Ok (row d (named "ast_decl_func_t" (fd_name f)) ++ x ++ y))
    end.

  (** ast_t::dump, ast.cpp:187-190 *)
  Definition print_tree (items : list ritem) : res bytes :=
    x <- print_all (print_item 1) items ;; Ok (row 0 (bs "ast_program_t") ++ x).
End Printer.

(** nano_t::build once more, lib_compiler/nano.cpp:28-75, with the tree it
    leaves behind: that of the optimiser plus the function [@init]
    (pre_codegen.cpp:180-213). *)
Definition build_tree (fuel : nat) (fs : bytes -> option bytes) (addr : nat -> Z) (on : bool)
    (regs : list (bytes * Z)) (m : list source_t) : res (option (program_t * list ritem)) :=
  match m with
  | [] => Ok None
  | _ =>
      '(items, _) <- parse_sources fuel fs m 0 [] [] ;;
      '(r, n) <- run_sema addr (map (fun x => CSys (fst x) (snd x)) regs ++ map CItem items) ;;
      '(r1, n1) <- run_optimize on r n ;;
      p <- generate r1 n1 ;;
      Ok (Some (p, add_init r1 n1))
  end.

(** ** comp/driver.cpp, the compiler's command line

    [a1] is argv[1] and [args] are argv[1], argv[2], ..., C strings without their
    NUL.  What happens is the exit code and the files written; the texts on
    stderr and stdout are left out.  [can] tells which files fopen can create.
    Output files are assumed not to be read as sources. *)
Record request : Type := Request {
  q_sources : list source_t;
  q_optimize : bool;
  q_ast : option bytes;       (* path of an opened file, or nullptr *)
  q_dis : option bytes;
  q_bin : option bytes
}.
Record outcome : Type := Outcome { x_code : Z; x_files : list (bytes * bytes) }.

Section Comp.
  Variable fs : bytes -> option bytes.
  Variable can : bytes -> bool.

  (** comp/driver.cpp:23-27: sprintf into a buffer of 1024 bytes. *)
  Definition fd_open (base : bytes) (ext : string) : res (option bytes) :=
    let path := base ++ bs ext in
    if zlen path <? 1024 then Ok (if can path then Some path else None) else Stuck SOob.

  (** comp/driver.cpp:57-82; [None] is the return for a source that cannot be
      loaded.  arg[1] of "-" is the NUL. *)
  Fixpoint comp_args (a1 : bytes) (args : list bytes) (q : request) : res (option request) :=
    match args with
    | [] => Ok (Some q)
    | arg :: rest =>
        match arg with
        | 45 :: opt =>
            match opt with
            | 97 :: _ =>
                p <- fd_open a1 ".ast" ;;
                comp_args a1 rest (Request (q_sources q) (q_optimize q) p (q_dis q) (q_bin q))
            | 100 :: _ =>
                p <- fd_open a1 ".dis" ;;
                comp_args a1 rest (Request (q_sources q) (q_optimize q) (q_ast q) p (q_bin q))
            | 98 :: _ =>
                p <- fd_open a1 ".bin" ;;
                comp_args a1 rest (Request (q_sources q) (q_optimize q) (q_ast q) (q_dis q) p)
            | 110 :: _ => comp_args a1 rest (Request (q_sources q) false (q_ast q) (q_dis q) (q_bin q))
            | _ => comp_args a1 rest q
            end
        | _ =>
            let (ok, m) := sm_load fs (q_sources q) arg in
            if ok then comp_args a1 rest (Request m (q_optimize q) (q_ast q) (q_dis q) (q_bin q))
            else Ok None
        end
    end.

  (** A file that was opened, with what was written to it. *)
  Definition written (o : option bytes) (data : bytes) : list (bytes * bytes) :=
    match o with Some p => [(p, data)] | None => [] end.

  (** comp/driver.cpp:38-118.  No syscall is registered.  When the build fails,
      or a source cannot be loaded, the opened files stay empty (they are not
      mentioned for a load failure, after which nothing else is done). *)
  Definition comp_main (fuel : nat) (addr : nat -> Z) (ff : f32 -> bytes) (args : list bytes) : res outcome :=
    match args with
    | [] => Ok (Outcome (-1) [])
    | a1 :: _ =>
        o <- comp_args a1 args (Request [] true None None None) ;;
        match o with
        | None => Ok (Outcome (-2) [])
        | Some q =>
            let empty := written (q_ast q) [] ++ written (q_dis q) [] ++ written (q_bin q) [] in
            match build_tree fuel fs addr (q_optimize q) [] (q_sources q) with
            | Stuck x => Stuck x
            | Err _ _ | Ok None => Ok (Outcome 1 empty)
            | Ok (Some (p, tree)) =>
                a <- match q_ast q with Some _ => print_tree ff tree | None => Ok [] end ;;
                d <- match q_dis q with Some _ => list_program p | None => Ok [] end ;;
                Ok (Outcome 0 (written (q_ast q) a ++ written (q_dis q) d ++ written (q_bin q) (p_code p)))
            end
        end
    end.
End Comp.
