(** Independent description of the instruction set: how each instruction is
    called and how many 32-bit operand words follow its opcode byte, taken from
    the comments in lib_common/instructions.h:6-163. *)
From Coq Require Import ZArith List Bool String.
From Verif Require Import Base Instr.
Import ListNotations.
Open Scope Z_scope.

Definition operands (i : instr) : Z :=
  match i with
  | INS_CALL | INS_SCALL => 2
  | INS_JMP | INS_TJMP | INS_FJMP | INS_RET | INS_ICALL | INS_POP
  | INS_NEW_INT | INS_NEW_STR | INS_NEW_ARY | INS_NEW_FLT | INS_NEW_FUNC
  | INS_NEW_SCALL | INS_LOCALS | INS_GLOBALS | INS_GETV | INS_SETV
  | INS_GETG | INS_SETG | INS_GETM | INS_SETM | INS_ARY_INIT => 1
  | _ => 0
  end.

Definition name (i : instr) : string :=
  match i with
  | INS_ADD => "INS_ADD" | INS_SUB => "INS_SUB" | INS_MUL => "INS_MUL"
  | INS_DIV => "INS_DIV" | INS_MOD => "INS_MOD" | INS_AND => "INS_AND"
  | INS_OR => "INS_OR" | INS_NOT => "INS_NOT" | INS_NEG => "INS_NEG"
  | INS_LT => "INS_LT" | INS_GT => "INS_GT" | INS_LEQ => "INS_LEQ"
  | INS_GEQ => "INS_GEQ" | INS_EQ => "INS_EQ" | INS_JMP => "INS_JMP"
  | INS_TJMP => "INS_TJMP" | INS_FJMP => "INS_FJMP" | INS_CALL => "INS_CALL"
  | INS_RET => "INS_RET" | INS_SCALL => "INS_SCALL" | INS_ICALL => "INS_ICALL"
  | INS_POP => "INS_POP" | INS_NEW_INT => "INS_NEW_INT"
  | INS_NEW_STR => "INS_NEW_STR" | INS_NEW_ARY => "INS_NEW_ARY"
  | INS_NEW_NONE => "INS_NEW_NONE" | INS_NEW_FLT => "INS_NEW_FLT"
  | INS_NEW_FUNC => "INS_NEW_FUNC" | INS_NEW_SCALL => "INS_NEW_SYSCALL"
  | INS_LOCALS => "INS_LOCALS" | INS_GLOBALS => "INS_GLOBALS"
  | INS_GETV => "INS_GETV" | INS_SETV => "INS_SETV" | INS_DEREF => "INS_DEREF"
  | INS_SETA => "INS_SETA" | INS_GETG => "INS_GETG" | INS_SETG => "INS_SETG"
  | INS_GETM => "INS_GETM" | INS_SETM => "INS_SETM"
  | INS_ARY_INIT => "INS_ARY_INIT"
  end.

(** The text line the disassembler should print. *)
Definition text (x : ins) : bytes :=
  match x with
  | I0 i => bs (name i)
  | I1 i o => bs (name i) ++ bs " " ++ dec o
  | I2 i o1 o2 => bs (name i) ++ bs " " ++ dec o1 ++ bs " " ++ dec o2
  end.

Definition ins_op (x : ins) : instr :=
  match x with I0 i => i | I1 i _ => i | I2 i _ _ => i end.

(** Operands present and 32-bit. *)
Definition ins_wf (x : ins) : Prop :=
  match x with
  | I0 i => operands i = 0
  | I1 i o => operands i = 1 /\ in_i32 o = true
  | I2 i o1 o2 => operands i = 2 /\ in_i32 o1 = true /\ in_i32 o2 = true
  end.
