(** Pre-codegen passes and the code generator: lib_compiler/pre_codegen.cpp,
    codegen.cpp and program_builder.{h,cpp}. *)
From Coq Require Import ZArith List Bool String.
From Verif Require Import Base F32 Instr Program Ast Sema.
Import ListNotations.
Open Scope Z_scope.

(** ** pregen_init_t, pre_codegen.cpp:168-212 *)
Definition init_name : bytes := bs "@init".

(** on_global, pre_codegen.cpp:183-196: the assignment shares the expression
    node and the name token with the declaration. *)
Definition init_assign (i : ritem) : list rstmt :=
  match i with
  | RGlobal d (Some e) => if vd_const d then [] else [RAssign d (vd_line d) e]
  | _ => []
  end.
(** [n] numbers the new function node; its token and end token are null (the
    end line is never read for [@init]). *)
Definition add_init (items : list ritem) (n : nat) : list ritem :=
  items ++ [RFunc (FDecl n init_name None false false 0)
                  [] (flat_map init_assign items) no_line].

(** ** pregen_offset_t, pre_codegen.cpp:7-99

    [offset] of the declarations: an association list from node numbers.  A
    declaration that is never visited keeps 0 (ast.h:598). *)
Definition slots : Type := list (nat * Z).
Fixpoint assoc (m : slots) (id : nat) : Z :=
  match m with
  | [] => 0
  | (i, o) :: t => if Nat.eqb i id then o else assoc t id
  end.

(** Offsets given out so far, stack_size_, and offset_.back(). *)
Record ost : Type := OSt { o_map : slots; o_max : Z; o_cur : Z }.

(** visit(ast_decl_var_t), pre_codegen.cpp:20-31 *)
Definition off_var (d : vdecl) (s : ost) : ost :=
  match vd_kind d with
  | KLocal =>
      if vd_const d then s else
      OSt ((vd_id d, o_cur s) :: o_map s)
          (Z.max (o_max s) (o_cur s + 1)) (o_cur s + 1)
  | _ => s
  end.

(** Statements: pre_codegen.cpp:33-53.  A block works on a copy of the current
    offset and drops it at its end; for an [if] the copy is made twice, to the
    same effect. *)
Fixpoint off_stmt (s : rstmt) (st : ost) {struct s} : ost :=
  let block := fix go (l : list rstmt) (st : ost) : ost :=
    match l with [] => st | a :: t => go t (off_stmt a st) end in
  let oblock (o : option (list rstmt)) (st : ost) :=
    match o with
    | None => st
    | Some b => let st' := block b st in OSt (o_map st') (o_max st') (o_cur st)
    end in
  match s with
  | RVar d _ => off_var d st
  | RIf _ _ t f => oblock f (oblock t st)
  | RWhile _ _ b => oblock b st
  | RFor _ _ _ _ _ body => oblock (Some body) st
  | _ => st
  end.
Fixpoint off_block (l : list rstmt) (st : ost) : ost :=
  match l with [] => st | a :: t => off_block t (off_stmt a st) end.

(** The arguments: -1 for the last one, going down; pre_codegen.cpp:76-83. *)
Fixpoint off_args (rargs : list vdecl) (i : Z) (m : slots) : slots :=
  match rargs with
  | [] => m
  | d :: t => off_args t (i - 1) ((vd_id d, i) :: m)
  end.

(** visit(ast_program_t) and visit(ast_decl_func_t), pre_codegen.cpp:55-91:
    offsets, stack sizes (by function node), next global offset. *)
Fixpoint off_items (l : list ritem) (m sizes : slots) (g : Z) : slots * slots :=
  match l with
  | [] => (m, sizes)
  | RSys _ :: t => off_items t m sizes g
  | RGlobal d _ :: t =>
      if vd_const d then off_items t m sizes g
      else off_items t ((vd_id d, g) :: m) sizes (g + 1)
  | RFunc f args body _ :: t =>
      let st := off_block body (OSt (off_args (rev args) (-1) m) 0 0) in
      off_items t (o_map st) ((fd_id f, o_max st) :: sizes) g
  end.
Definition offsets (items : list ritem) : slots * slots := off_items items [] [] 0.

(** ** pregen_functions_t, pre_codegen.cpp:101-166 *)
Fixpoint local_decls (s : rstmt) : list vdecl :=
  match s with
  | RVar d _ => [d]
  | RIf _ _ t f =>
      match t with None => [] | Some b => flat_map local_decls b end
      ++ match f with None => [] | Some b => flat_map local_decls b end
  | RWhile _ _ b => match b with None => [] | Some b => flat_map local_decls b end
  | RFor _ _ _ _ _ body => flat_map local_decls body
  | _ => []
  end.
Definition ident_of (m : slots) (d : vdecl) : identifier_t :=
  Ident (vd_name d) (assoc m (vd_id d)).
Definition function_of (m : slots) (i : ritem) : list function_t :=
  match i with
  | RFunc f args body _ =>
      [Func (fd_name f) 0 0 (map (ident_of m) (flat_map local_decls body))
            (map (ident_of m) args)]
  | _ => []
  end.
Definition syscall_of (sys : list syscall_t) (i : ritem) : list syscall_t :=
  match i with RSys f => snd (add_syscall sys (fd_name f)) | _ => sys end.

(** ** The code generator, codegen.cpp *)

(** The program under construction, func_map_ and call_fixups_. *)
Record cg : Type := Cg {
  g_globals : list identifier_t;
  g_sys : list syscall_t;
  g_funs : list function_t;
  g_code : bytes;
  g_lines : list (Z * line_t);
  g_strs : list bytes;
  g_map : list (bytes * Z);
  g_fix : list (fdecl * Z)
}.

(** program_builder.h:38-42 *)
Definition pos (s : cg) : Z := zlen (g_code s).
(** codegen.cpp:489-491 *)
Definition fixup_at (s : cg) : Z := pos s - 4.

(** emit, codegen.cpp:544-618, with set_line, program_builder.cpp:5-11. *)
Definition put (x : ins) (t : option line_t) (s : cg) : res cg :=
  b <- emit x ;;
  Ok (Cg (g_globals s) (g_sys s) (g_funs s) (g_code s ++ b)
         (match t with Some l => lt_set (g_lines s) (pos s) l | None => g_lines s end)
         (g_strs s) (g_map s) (g_fix s)).
(** stream_.apply_fixup *)
Definition patch (at_ v : Z) (s : cg) : res cg :=
  c <- apply_fixup (g_code s) at_ v ;;
  Ok (Cg (g_globals s) (g_sys s) (g_funs s) c (g_lines s) (g_strs s) (g_map s) (g_fix s)).
(** add_string_, codegen.cpp:73-77 *)
Definition add_string (x : bytes) (s : cg) : Z * cg :=
  (zlen (g_strs s),
   Cg (g_globals s) (g_sys s) (g_funs s) (g_code s) (g_lines s) (g_strs s ++ [x])
      (g_map s) (g_fix s)).
(** stream_.add_syscall *)
Definition add_sys (x : bytes) (s : cg) : Z * cg :=
  let (i, l) := add_syscall (g_sys s) x in
  (i, Cg (g_globals s) l (g_funs s) (g_code s) (g_lines s) (g_strs s) (g_map s) (g_fix s)).
(** call_fixups_.emplace_back(func->token, operand) *)
Definition add_fix (f : fdecl) (s : cg) : cg :=
  Cg (g_globals s) (g_sys s) (g_funs s) (g_code s) (g_lines s) (g_strs s) (g_map s)
     (g_fix s ++ [(f, fixup_at s)]).

(** tok_to_ins_, codegen.cpp:18-37 *)
Definition ins_of_bin (o : binop) : instr :=
  match o with
  | BAdd => INS_ADD | BSub => INS_SUB | BMul => INS_MUL | BDiv => INS_DIV
  | BMod => INS_MOD | BAnd => INS_AND | BOr => INS_OR | BEq => INS_EQ
  | BLt => INS_LT | BGt => INS_GT | BLeq => INS_LEQ | BGeq => INS_GEQ
  end.
Definition ins_of_un (o : unop) : instr :=
  match o with UNeg => INS_NEG | UNot => INS_NOT end.

Definition count {A} (l : list A) : Z := zlen l.

Section Gen.
  Variable m : slots.

  (** set_decl_ and get_decl_, codegen.cpp:50-71.  The offset is an unsigned
      field holding a negative number for arguments; passing it on to emit
      converts it back. *)
  Definition set_decl (d : vdecl) (t : option line_t) (s : cg) : res cg :=
    _ <- assert_ (negb (vd_const d)) ;;
    match vd_kind d with
    | KLocal | KArg => put (I1 INS_SETV (assoc m (vd_id d))) t s
    | KGlobal => put (I1 INS_SETG (assoc m (vd_id d))) t s
    end.
  Definition get_decl (d : vdecl) (t : option line_t) (s : cg) : res cg :=
    _ <- assert_ (negb (vd_const d)) ;;
    match vd_kind d with
    | KLocal | KArg => put (I1 INS_GETV (assoc m (vd_id d))) t s
    | KGlobal => put (I1 INS_GETG (assoc m (vd_id d))) t s
    end.
  (** get_func_, codegen.cpp:79-98 *)
  Definition get_func (f : fdecl) (t : option line_t) (s : cg) : res cg :=
    if fd_sys f then
      match find_syscall (g_sys s) (fd_name f) 0 with
      | Some i => put (I1 INS_NEW_SCALL i) t s
      | None => Stuck SAssert
      end
    else s1 <- put (I1 INS_NEW_FUNC 0) t s ;; Ok (add_fix f s1).

  (** Expressions, codegen.cpp:117-229.  [walk f l s] visits a list in order. *)
  Fixpoint gen_expr (e : rexpr) (s : cg) {struct e} : res cg :=
    match e with
    | RInt _ v l => put (I1 INS_NEW_INT v) l s
    | RFloat f l => put (I1 INS_NEW_FLT (f_to_bits f)) (Some l) s
    | RStr x l => let (i, s1) := add_string x s in put (I1 INS_NEW_STR i) (Some l) s1
    | RNone l => put (I0 INS_NEW_NONE) (Some l) s
    | RIdent (DV d) l => get_decl d (Some l) s
    | RIdent (DF f) l => get_func f (Some l) s
    | RMember d l x lm =>
        let (i, s1) := add_string x s in
        s2 <- get_decl d (Some l) s1 ;;
        put (I1 INS_GETM i) (Some lm) s2
    | RArray l es =>
        s1 <- walk gen_expr es s ;;
        _ <- assert_ (0 <? count es) ;;
        put (I1 INS_ARY_INIT (count es)) (Some l) s1
    | RIndex l a i =>
        s1 <- gen_expr i s ;; s2 <- gen_expr a s1 ;; put (I0 INS_DEREF) (Some l) s2
    | RCall l f es =>
        s1 <- walk gen_expr es s ;;
        match f with
        | RIdent (DF fd) lf =>
            _ <- assert_ (fd_var fd || Nat.eqb (fd_arity fd) (List.length es)) ;;
            if fd_sys fd then
              let (i, s2) := add_sys (fd_name fd) s1 in
              put (I2 INS_SCALL (count es) i) (Some lf) s2
            else
              s2 <- put (I2 INS_CALL (count es) 0) (Some l) s1 ;; Ok (add_fix fd s2)
        | _ =>
            s2 <- gen_expr f s1 ;; put (I1 INS_ICALL (count es)) (Some l) s2
        end
    | RBin o l a b =>
        s1 <- gen_expr a s ;; s2 <- gen_expr b s1 ;; put (I0 (ins_of_bin o)) (Some l) s2
    | RUn o l a => s1 <- gen_expr a s ;; put (I0 (ins_of_un o)) (Some l) s1
    end.

  (** args.size() + stack_size of the enclosing function *)
  Variable space : Z.

  (** Statements, codegen.cpp:212-216, 231-414 and 457-474. *)
  Fixpoint gen_stmt (x : rstmt) (s : cg) {struct x} : res cg :=
    let oblock (o : option (list rstmt)) (s : cg) :=
      match o with None => Ok s | Some b => walk gen_stmt b s end in
    match x with
    | RVar d oe =>
        match vd_kind d with
        | KGlobal => Ok s (* not a statement: see [gen_item] *)
        | k =>
            if vd_const d then Ok s else
            _ <- assert_ (match k with KLocal => true | _ => false end) ;;
            match oe with
            | None => Ok s
            | Some e => s1 <- gen_expr e s ;;
                        put (I1 INS_SETV (assoc m (vd_id d))) (Some (vd_line d)) s1
            end
        end
    | RAssign d l e => s1 <- gen_expr e s ;; set_decl d (Some l) s1
    | RSetMem d l x lm e =>
        s1 <- gen_expr e s ;;
        s2 <- get_decl d (Some l) s1 ;;
        let (i, s3) := add_string x s2 in
        put (I1 INS_SETM i) (Some lm) s3
    | RSetIdx d l i e =>
        s1 <- gen_expr e s ;; s2 <- gen_expr i s1 ;;
        s3 <- get_decl d (Some l) s2 ;; put (I0 INS_SETA) (Some l) s3
    | RCallS l f es =>
        s1 <- gen_expr (RCall l f es) s ;; put (I1 INS_POP 1) (Some l) s1
    | RIf l c t f =>
        s1 <- gen_expr c s ;;
        s2 <- put (I1 INS_FJMP 0) (Some l) s1 ;;
        let to_L0 := fixup_at s2 in
        s3 <- oblock t s2 ;;
        match f with
        | None => patch to_L0 (pos s3) s3
        | Some _ =>
            s4 <- put (I1 INS_JMP 0) None s3 ;;
            let to_L1 := fixup_at s4 in
            let L0 := pos s4 in
            s5 <- oblock f s4 ;;
            let L1 := pos s5 in
            s6 <- patch to_L0 L0 s5 ;; patch to_L1 L1 s6
        end
    | RWhile l c b =>
        s1 <- put (I1 INS_JMP 0) (Some l) s ;;
        let to_L1 := fixup_at s1 in
        let L0 := pos s1 in
        s2 <- oblock b s1 ;;
        let L1 := pos s2 in
        s3 <- gen_expr c s2 ;;
        s4 <- put (I1 INS_TJMP 0) (Some l) s3 ;;
        let to_L0 := fixup_at s4 in
        s5 <- patch to_L0 L0 s4 ;; patch to_L1 L1 s5
    | RFor l d lx a b body =>
        s1 <- gen_expr a s ;;
        s2 <- set_decl d (Some lx) s1 ;;
        s3 <- put (I1 INS_JMP 0) (Some l) s2 ;;
        let to_L1 := fixup_at s3 in
        let L0 := pos s3 in
        s4 <- walk gen_stmt body s3 ;;
        s5 <- get_decl d (Some l) s4 ;;
        s6 <- put (I1 INS_NEW_INT 1) (Some l) s5 ;;
        s7 <- put (I0 INS_ADD) (Some l) s6 ;;
        s8 <- set_decl d (Some l) s7 ;;
        let L1 := pos s8 in
        s9 <- get_decl d (Some l) s8 ;;
        s10 <- gen_expr b s9 ;;
        s11 <- put (I0 INS_LT) (Some l) s10 ;;
        s12 <- put (I1 INS_TJMP 0) (Some l) s11 ;;
        let to_L0 := fixup_at s12 in
        s13 <- patch to_L0 L0 s12 ;; patch to_L1 L1 s13
    | RReturn l oe =>
        s1 <- match oe with
              | Some e => gen_expr e s
              | None => put (I0 INS_NEW_NONE) (Some l) s
              end ;;
        put (I1 INS_RET space) (Some l) s1
    end.
End Gen.

(** program_t::function_find followed by writing the start or end address. *)
Fixpoint set_func (name : bytes) (k : function_t -> function_t) (l : list function_t)
  : res (list function_t) :=
  match l with
  | [] => Stuck SAssert
  | f :: t =>
      if bytes_eqb (f_name f) name then Ok (k f :: t)
      else t' <- set_func name k t ;; Ok (f :: t')
  end.
Definition set_range (a b : Z) (f : function_t) : function_t :=
  Func (f_name f) a b (f_locals f) (f_args f).
Definition set_end (b : Z) (f : function_t) : function_t :=
  Func (f_name f) (f_start f) b (f_locals f) (f_args f).
Definition upd_func (name : bytes) (k : function_t -> function_t) (s : cg) : res cg :=
  l <- set_func name k (g_funs s) ;;
  Ok (Cg (g_globals s) (g_sys s) l (g_code s) (g_lines s) (g_strs s) (g_map s) (g_fix s)).

(** func_map_, a std::map<std::string, int32_t> *)
Definition map_func (name : bytes) (v : Z) (s : cg) : cg :=
  Cg (g_globals s) (g_sys s) (g_funs s) (g_code s) (g_lines s) (g_strs s)
     ((name, v) :: g_map s) (g_fix s).
Fixpoint map_get (l : list (bytes * Z)) (name : bytes) : Z :=
  match l with
  | [] => 0
  | (n, v) :: t => if bytes_eqb n name then v else map_get t name
  end.

(** is the last node of the body a return statement, codegen.cpp:441-446 *)
Fixpoint ends_in_return (b : list rstmt) : bool :=
  match b with
  | [] => false
  | [RReturn _ _] => true
  | _ :: t => ends_in_return t
  end.

(** visit(ast_decl_func_t), codegen.cpp:416-455, visit_init, lines 494-533, and
    the global case of visit(ast_decl_var_t), lines 457-462.  [ng] is the number
    of globals that are not constants. *)
Definition gen_item (m sizes : slots) (ng : Z) (i : ritem) (s : cg) : res cg :=
  match i with
  | RSys _ => Ok s
  | RGlobal d _ =>
      Ok (Cg (g_globals s ++ [ident_of m d]) (g_sys s) (g_funs s) (g_code s) (g_lines s)
             (g_strs s) (g_map s) (g_fix s))
  | RFunc f args body lend =>
      s1 <- upd_func (fd_name f) (set_range (pos s) (pos s)) s ;;
      let s2 := map_func (fd_name f) (pos s1) s1 in
      let size := assoc sizes (fd_id f) in
      let space := count args + size in
      if bytes_eqb (fd_name f) init_name then
        s3 <- put (I1 INS_GLOBALS ng) None s2 ;;
        s4 <- walk (gen_stmt m space) body s3 ;;
        s5 <- put (I1 INS_NEW_INT 0) None s4 ;;
        s6 <- put (I1 INS_RET space) None s5 ;;
        upd_func (fd_name f) (set_end (pos s6)) s6
      else
        s3 <- (if 0 <? size then put (I1 INS_LOCALS size) (fd_line f) s2 else Ok s2) ;;
        s4 <- walk (gen_stmt m space) body s3 ;;
        s6 <- (if ends_in_return body then Ok s4 else
               s5 <- put (I1 INS_NEW_INT 0) (Some lend) s4 ;;
               put (I1 INS_RET space) (Some lend) s5) ;;
        upd_func (fd_name f) (set_end (pos s6)) s6
  end.

(** The call fixups, codegen.cpp:110-114; the name is read through the token of
    the function. *)
Definition apply_call (x : fdecl * Z) (s : cg) : res cg :=
  match fd_line (fst x) with
  | None => Stuck SNull
  | Some _ => patch (snd x) (map_get (g_map s) (fd_name (fst x))) s
  end.

Definition is_var_global (i : ritem) : bool :=
  match i with RGlobal d _ => negb (vd_const d) | _ => false end.

(** run_pre_codegen and codegen_t::run on a fresh program object:
    pre_codegen.cpp:215-229, codegen.cpp:622-640. *)
Definition generate (items0 : list ritem) (n : nat) : res program_t :=
  let items := add_init items0 n in
  let (m, sizes) := offsets items in
  let s0 := Cg [] (fold_left syscall_of items []) (flat_map (function_of m) items)
               [] [] [] [] [] in
  s1 <- walk (gen_item m sizes (zlen (filter is_var_global items))) items s0 ;;
  s2 <- walk apply_call (g_fix s1) s1 ;;
  Ok (Prog (g_globals s2) (g_sys s2) (g_funs s2) (g_code s2) (g_lines s2) (g_strs s2)).
