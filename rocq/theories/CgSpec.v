(** Vocabulary for the properties of the code generator. *)
From Coq Require Import ZArith List Bool.
From Verif Require Import Base F32 Instr InstrSpec Program VM AbsHeap VmSpec Ast Sema SemaSpec Codegen SrcSem.
Import ListNotations.
Open Scope Z_scope.

(** ** Programs the generator is given

    What semantic analysis guarantees: functions have different names, no two
    declarations are the same node, the functions that are referred to exist, and
    literals are machine numbers or arrays with elements.  [n] is the next free
    node number. *)
Definition function_names (items : list ritem) : list bytes :=
  flat_map (fun i => match i with RFunc f _ _ _ => [fd_name f] | _ => [] end) items.
Definition function_nodes (items : list ritem) : list nat :=
  flat_map (fun i => match i with RFunc f _ _ _ => [fd_id f] | _ => [] end) items.
Definition variables (items : list ritem) : list vdecl :=
  flat_map (fun i => match i with
                     | RSys _ => []
                     | RGlobal d _ => [d]
                     | RFunc _ args body _ => args ++ decls_block body
                     end) items.
Definition declared (items : list ritem) (e : rexpr) : Prop :=
  match e with
  | RIdent (DF f) _ => fd_sys f = false -> exists args body lend, In (RFunc f args body lend) items
  | _ => True
  end.
Definition machine_literal (e : rexpr) : Prop :=
  match e with
  | RInt _ v _ => in_i32 v = true
  | RFloat f _ => f_valid f = true
  | RArray _ es => es <> []
  | _ => True
  end.
Record program_ok (items : list ritem) (n : nat) : Prop := ProgramOk {
  po_names : NoDup (init_name :: function_names items);
  po_nodes : NoDup (map vd_id (variables items));
  po_functions : NoDup (function_nodes items);
  po_next : Forall (fun i => (i < n)%nat) (function_nodes items);
  po_declared : Forall (declared items) (program_exprs items);
  po_literals : Forall machine_literal (program_exprs items)
}.

(** The generated program is small enough for 32-bit operands. *)
Record fits (p : program_t) : Prop := Fits {
  fi_code : zlen (p_code p) <= i32_max;
  fi_strings : zlen (p_strings p) <= i32_max;
  fi_syscalls : zlen (p_syscalls p) <= i32_max;
  fi_globals : zlen (p_globals p) <= i32_max;
  fi_frames : Forall (fun f => zlen (f_args f) + zlen (f_locals f) <= i32_max) (p_functions p)
}.

(** Binding syscalls to host functions changes nothing else. *)
Record bound (p q : program_t) : Prop := Bound {
  bo_code : p_code q = p_code p;
  bo_strings : p_strings q = p_strings p;
  bo_functions : p_functions q = p_functions p;
  bo_syscalls : map s_name (p_syscalls q) = map s_name (p_syscalls p)
}.

(** ** Function values and syscall values

    The value of a function is the address where it starts, that of a syscall its
    index. *)
Definition address (p : program_t) (name : bytes) : Z :=
  match find (fun x => bytes_eqb (f_name x) name) (p_functions p) with
  | Some x => f_start x
  | None => 0
  end.
Definition entry (items : list ritem) (p : program_t) (id : nat) : Z :=
  match by_id items id with
  | Some (f, _, _) => address p (fd_name f)
  | None => 0
  end.
Fixpoint index_of (l : list bytes) (x : bytes) (i : Z) : Z :=
  match l with
  | [] => 0
  | y :: t => if bytes_eqb y x then i else index_of t x (i + 1)
  end.
Definition sys_index (p : program_t) (x : bytes) : Z := index_of (map s_name (p_syscalls p)) x 0.

(** ** Machine and source states *)
Notation machine := (mst aval aheap).

(** The globals of the source state are the global variables of the program, in
    order. *)
Definition globals_of (items : list ritem) (st : sst) : Prop :=
  map fst (s_glob st) = map fst (global_vars items).

(** The machine holds the arrays, globals, world and started threads of [st];
    [extra] are globals beyond those of the program, [others] the other threads. *)
Record holds (st : sst) (extra : list aval) (others : list (thread aval)) (s : machine) : Prop := Holds {
  ho_heap : m_heap s = s_heap st;
  ho_glob : m_glob s = map snd (s_glob st) ++ extra;
  ho_world : m_world s = s_world st;
  ho_new : m_pre s = s_new st;
  ho_others : m_post s = others
}.
(** where the current thread is *)
Record running (a : Z) (stk : list aval) (frs : list frame) (s : machine) : Prop := Running {
  ru_pc : t_pc (m_cur s) = a;
  ru_stk : t_stk (m_cur s) = stk;
  ru_frs : t_frs (m_cur s) = frs;
  ru_err : t_err (m_cur s) = None;
  ru_fin : t_fin (m_cur s) = false
}.
(** it has returned from the frame [fr] with value [v] *)
Record returned (fr : frame) (v : aval) (rest : list aval) (frs : list frame) (s : machine) : Prop := Returned {
  rt_pc : t_pc (m_cur s) = fr_ret fr;
  rt_stk : t_stk (m_cur s) = v :: rest;
  rt_frs : t_frs (m_cur s) = frs;
  rt_err : t_err (m_cur s) = None;
  rt_fin : t_fin (m_cur s) = fr_term fr || match frs with [] => true | _ => false end
}.
Definition failed (e : terr) (s : machine) : Prop :=
  t_err (m_cur s) = Some e /\ t_fin (m_cur s) = true.

(** Instructions executed one after the other by a thread that is not finished. *)
Inductive steps (p : program_t) : machine -> machine -> Prop :=
| steps_none : forall s, steps p s s
| steps_more : forall s s1 s2, t_fin (m_cur s) = false -> step_imp abs_ops p s = Ok (tt, s1) ->
    steps p s1 s2 -> steps p s s2.
(** The machine gets to a state with property [Q], or to one with more values on
    the stack than a 32-bit index can address. *)
Definition reaches (p : program_t) (Q : machine -> Prop) (s : machine) : Prop :=
  exists s', steps p s s' /\ (Q s' \/ i32_max < zlen (t_stk (m_cur s'))).

(** The variables of an activation: on the stack lie its arguments, above them
    its [locals] from slot 0 up, above them temporaries.  Argument [i] of [n] has
    slot [i - n]; the locals in scope have the slots 0, 1, ... in the order of
    their declarations. *)
Definition stack_of (tmps : list aval) (r : env) (locals rest : list aval) : list aval :=
  tmps ++ rev (map snd (v_args r) ++ locals) ++ rest.
Record activation (m : slots) (r : env) (locals rest : list aval) (fr : frame) : Prop := Activation {
  ac_base : fr_sp fr = zlen rest + zlen (v_args r);
  ac_args : forall i id v, znth (v_args r) i = Some (id, v) -> assoc m id = i - zlen (v_args r);
  ac_room : zlen (v_locals r) <= zlen locals;
  ac_slots : forall i id o, znth (rev (v_locals r)) i = Some (id, o) ->
    assoc m id = i /\ forall v, o = Some v -> znth locals i = Some v
}.

(** ** Pieces of code

    The generator went from [s] to [s'], and what it emitted is in the program
    [p] at the same addresses, with its call operands filled in. *)
Definition link (p : program_t) (l : list (fdecl * Z)) (code : bytes) : res bytes :=
  walk (fun x c => apply_fixup c (snd x) (address p (fd_name (fst x)))) l code.
Record loaded (p : program_t) (s s' : cg) : Prop := Loaded {
  lo_code : exists calls linked, g_fix s' = g_fix s ++ calls /\
    link p calls (g_code s') = Ok linked /\
    zskipn (pos s) (zfirstn (pos s') (p_code p)) = zskipn (pos s) linked;
  lo_strings : exists more, p_strings p = g_strs s' ++ more;
  lo_syscalls : exists more, map s_name (p_syscalls p) = map s_name (g_sys s') ++ more
}.
Definition slots_of (items : list ritem) (n : nat) : slots := fst (offsets (add_init items n)).

(** ** Control flow *)

(** Addresses where an instruction starts, decoding from [a]. *)
Inductive starts (p : program_t) (a : Z) : Z -> Prop :=
| starts_here : starts p a a
| starts_next : forall b x, starts p a b -> at_ins p b x -> starts p a (b + ins_len (ins_op x)).
Definition jump_target (x : ins) : option Z :=
  match x with
  | I1 INS_JMP t | I1 INS_TJMP t | I1 INS_FJMP t => Some t
  | _ => None
  end.
Definition function_operand (x : ins) : option Z :=
  match x with
  | I2 INS_CALL _ t => Some t
  | I1 INS_NEW_FUNC t => Some t
  | _ => None
  end.

(** ** Scopes

    [scope b l x l'] : running through the block [b] with the locals [l] in scope
    (newest first), the statement [x] is met with [l'] in scope. *)
Definition declares (x : rstmt) : list vdecl := match x with RVar d _ => [d] | _ => [] end.
Inductive scope : list rstmt -> list vdecl -> rstmt -> list vdecl -> Prop :=
| sc_here : forall x b l, scope (x :: b) l x l
| sc_next : forall x b l y l', scope b (declares x ++ l) y l' -> scope (x :: b) l y l'
| sc_then : forall k c t f b l y l', scope t l y l' -> scope (RIf k c (Some t) f :: b) l y l'
| sc_else : forall k c t f b l y l', scope f l y l' -> scope (RIf k c t (Some f) :: b) l y l'
| sc_while : forall k c t b l y l', scope t l y l' -> scope (RWhile k c (Some t) :: b) l y l'
| sc_for : forall k d lx e1 e2 t b l y l', scope t l y l' -> scope (RFor k d lx e1 e2 t :: b) l y l'.
