(** Vocabulary for the safety properties: a stack discipline for byte code, in
    the manner of a byte code verifier, and the ways in which a disciplined
    program can still fail. *)
From Coq Require Import ZArith List Bool String.
From Verif Require Import Base F32 Instr InstrSpec Program VM AbsHeap VmSpec CgSpec.
Import ListNotations.
Open Scope Z_scope.

(** ** The effect of an instruction on the stack

    Calls are seen from the caller: when the call is over, its arguments are gone
    and its result is on the stack. *)
Definition pops (x : ins) : Z :=
  match x with
  | I0 INS_NEW_NONE => 0
  | I0 INS_NOT | I0 INS_NEG => 1
  | I0 INS_SETA => 3
  | I0 _ => 2
  | I1 INS_TJMP _ | I1 INS_FJMP _ | I1 INS_RET _ | I1 INS_SETV _ | I1 INS_SETG _ | I1 INS_GETM _ => 1
  | I1 INS_SETM _ => 2
  | I1 INS_POP n | I1 INS_ARY_INIT n => n
  | I1 INS_ICALL n => n + 1
  | I1 _ _ => 0
  | I2 _ n _ => n
  end.
Definition pushes (x : ins) : Z :=
  match x with
  | I0 INS_SETA => 0
  | I0 _ => 1
  | I1 INS_LOCALS n => n
  | I1 INS_JMP _ | I1 INS_TJMP _ | I1 INS_FJMP _ | I1 INS_RET _ | I1 INS_SETV _ | I1 INS_SETG _
  | I1 INS_SETM _ | I1 INS_POP _ | I1 INS_GLOBALS _ => 0
  | I1 _ _ => 1
  | I2 _ _ _ => 1
  end.

(** Where control goes next inside the same function (after a call: when it is
    over). *)
Definition falls (x : ins) : bool :=
  match x with I1 INS_JMP _ | I1 INS_RET _ => false | _ => true end.
Definition follows (a : Z) (x : ins) (b : Z) : Prop :=
  (falls x = true /\ b = a + ins_len (ins_op x)) \/ jump_target x = Some b.

(** ** Operands *)

(** How many arguments each builtin or driver function takes off the stack. *)
Definition reads (fn : sysfn) (n : Z) : Prop :=
  match fn with
  | F_new_thread => 0 <= n
  | F_min | F_max | F_bitand => n = 2
  | F_rand | F_getc | F_gets => n = 0
  | F_host _ k => n = Z.of_nat k
  | _ => n = 1
  end.
(** Number [k] is a syscall that is bound to the host function [fn]. *)
Definition bound_to (q : program_t) (k : Z) (fn : sysfn) : Prop :=
  exists name, znth (p_syscalls q) k = Some (Sysc name (Some fn)).
(** Address [a] is where the function [f] of the program starts. *)
Definition function_at (q : program_t) (a : Z) (f : function_t) : Prop :=
  In f (p_functions q) /\ f_start f = a.

(** The operands of an instruction in a function with [size] slots for locals
    make sense. *)
Definition operand_ok (q : program_t) (f : function_t) (size : Z) (x : ins) : Prop :=
  match x with
  | I1 INS_NEW_STR o | I1 INS_GETM o | I1 INS_SETM o => 0 <= o < zlen (p_strings q)
  | I1 INS_NEW_FUNC o => exists g, function_at q o g
  | I1 INS_NEW_SCALL o => exists fn, bound_to q o fn
  | I2 INS_CALL n o => exists g, function_at q o g /\ num_args g = n
  | I2 INS_SCALL n o => exists fn, bound_to q o fn /\ reads fn n
  | I1 INS_ICALL n | I1 INS_POP n | I1 INS_GLOBALS n => 0 <= n
  | I1 INS_ARY_INIT n | I1 INS_NEW_ARY n => 0 < n
  | I1 INS_LOCALS n => n = size
  | I1 INS_RET n => n = num_args f + size
  | _ => True
  end.

(** ** The discipline

    Function [f] keeps [size] slots for locals, and whenever control is at
    address [a] its part of the stack (what lies above its arguments) has [h a]
    values: none on entry, always enough for the next instruction without
    touching the locals, and one above the locals when it returns. *)
Definition enough (x : ins) (size here : Z) : Prop :=
  match x with
  | I1 INS_LOCALS _ => here = 0
  | I1 INS_RET _ => here = size + 1
  | _ => size + pops x <= here
  end.
Record disciplined (q : program_t) (f : function_t) (size : Z) (h : Z -> Z) : Prop := Disciplined {
  di_size : 0 <= size;
  di_entry : h (f_start f) = 0;
  di_code : forall a, starts q (f_start f) a -> a < f_end f ->
    exists x, at_ins q a x /\ operand_ok q f size x /\ enough x size (h a) /\
      forall b, follows a x b ->
        starts q (f_start f) b /\ b < f_end f /\ h b = h a - pops x + pushes x
}.
Record verified (q : program_t) : Prop := Verified {
  ve_range : forall f, In f (p_functions q) -> 0 <= f_start f < f_end f;
  ve_apart : forall f g, In f (p_functions q) -> In g (p_functions q) ->
    f = g \/ f_end f <= f_start g \/ f_end g <= f_start f;
  ve_code : forall f, In f (p_functions q) -> exists size h, disciplined q f size h
}.

(** What the host promises: every syscall it registered and the program knows is
    bound to a function that takes the registered number of arguments. *)
Definition honest (regs : list (bytes * Z)) (q : program_t) : Prop :=
  forall name a s, In (name, a) regs -> In s (p_syscalls q) -> s_name s = name ->
    exists fn, s = Sysc name (Some fn) /\
      if a <? 0 then forall n, 0 <= n -> reads fn n else reads fn a.
