(** Instruction stream: opcodes, encoding, disassembly. *)
From Coq Require Import ZArith List Bool String.
From Verif Require Import Base.
Import ListNotations.
Open Scope Z_scope.

(** lib_common/instructions.h:6-163, in declaration order (the order fixes the
    opcode numbers). *)
Inductive instr : Type :=
| INS_ADD | INS_SUB | INS_MUL | INS_DIV | INS_MOD | INS_AND | INS_OR
| INS_NOT | INS_NEG | INS_LT | INS_GT | INS_LEQ | INS_GEQ | INS_EQ
| INS_JMP | INS_TJMP | INS_FJMP | INS_CALL | INS_RET | INS_SCALL | INS_ICALL
| INS_POP | INS_NEW_INT | INS_NEW_STR | INS_NEW_ARY | INS_NEW_NONE
| INS_NEW_FLT | INS_NEW_FUNC | INS_NEW_SCALL | INS_LOCALS | INS_GLOBALS
| INS_GETV | INS_SETV | INS_DEREF | INS_SETA | INS_GETG | INS_SETG
| INS_GETM | INS_SETM | INS_ARY_INIT.

(** The enumerators in order; [opcode] is the enumerator's value. *)
Definition all_instr : list instr :=
  [INS_ADD; INS_SUB; INS_MUL; INS_DIV; INS_MOD; INS_AND; INS_OR;
   INS_NOT; INS_NEG; INS_LT; INS_GT; INS_LEQ; INS_GEQ; INS_EQ;
   INS_JMP; INS_TJMP; INS_FJMP; INS_CALL; INS_RET; INS_SCALL; INS_ICALL;
   INS_POP; INS_NEW_INT; INS_NEW_STR; INS_NEW_ARY; INS_NEW_NONE;
   INS_NEW_FLT; INS_NEW_FUNC; INS_NEW_SCALL; INS_LOCALS; INS_GLOBALS;
   INS_GETV; INS_SETV; INS_DEREF; INS_SETA; INS_GETG; INS_SETG;
   INS_GETM; INS_SETM; INS_ARY_INIT].

Definition opcode (i : instr) : Z :=
  match i with
  | INS_ADD => 0 | INS_SUB => 1 | INS_MUL => 2 | INS_DIV => 3 | INS_MOD => 4
  | INS_AND => 5 | INS_OR => 6 | INS_NOT => 7 | INS_NEG => 8 | INS_LT => 9
  | INS_GT => 10 | INS_LEQ => 11 | INS_GEQ => 12 | INS_EQ => 13 | INS_JMP => 14
  | INS_TJMP => 15 | INS_FJMP => 16 | INS_CALL => 17 | INS_RET => 18
  | INS_SCALL => 19 | INS_ICALL => 20 | INS_POP => 21 | INS_NEW_INT => 22
  | INS_NEW_STR => 23 | INS_NEW_ARY => 24 | INS_NEW_NONE => 25
  | INS_NEW_FLT => 26 | INS_NEW_FUNC => 27 | INS_NEW_SCALL => 28
  | INS_LOCALS => 29 | INS_GLOBALS => 30 | INS_GETV => 31 | INS_SETV => 32
  | INS_DEREF => 33 | INS_SETA => 34 | INS_GETG => 35 | INS_SETG => 36
  | INS_GETM => 37 | INS_SETM => 38 | INS_ARY_INIT => 39
  end.

(** switch on the opcode byte, as in thread.cpp:737-780. *)
Definition of_opcode (b : Z) : option instr := znth all_instr b.

(** lib_common/instructions.cpp:5-30 *)
Definition ins_has_operand (i : instr) : bool :=
  match i with
  | INS_JMP | INS_FJMP | INS_TJMP | INS_CALL | INS_RET | INS_SCALL | INS_POP
  | INS_NEW_INT | INS_NEW_STR | INS_NEW_FLT | INS_LOCALS | INS_GLOBALS
  | INS_GETV | INS_SETV | INS_GETG | INS_SETG | INS_GETM | INS_SETM
  | INS_ARY_INIT => true
  | _ => false
  end.

(** lib_common/instructions.cpp:32-43 *)
Definition ins_will_branch (i : instr) : bool :=
  match i with
  | INS_JMP | INS_FJMP | INS_TJMP | INS_CALL | INS_RET => true
  | _ => false
  end.

(** lib_common/instructions.cpp:45-63 *)
Definition ins_is_binary_op (i : instr) : bool :=
  match i with
  | INS_ADD | INS_SUB | INS_MUL | INS_DIV | INS_MOD | INS_AND | INS_OR
  | INS_EQ | INS_LT | INS_GT | INS_LEQ | INS_GEQ => true
  | _ => false
  end.

(** lib_common/instructions.cpp:65-73 *)
Definition ins_is_unary_op (i : instr) : bool :=
  match i with INS_NOT | INS_NEG => true | _ => false end.

(** lib_compiler/program_builder.h:27-32; also the byte order in which the VM,
    the disassembler and the image format store an int32 on the (little-endian)
    hosts the code targets. *)
Definition le32 (z : Z) : bytes :=
  let u := to_u32 z in
  [u mod 256; (u / 256) mod 256; (u / 65536) mod 256; (u / 16777216) mod 256].

(** [*(int32_t * )p] on four bytes. *)
Definition of_le32 (b0 b1 b2 b3 : Z) : Z :=
  to_i32 (b0 + 256 * b1 + 65536 * b2 + 16777216 * b3).

(** Read an int32 at the start of a buffer; [None] outside the buffer. *)
Definition rd32 (l : bytes) : option (Z * bytes) :=
  match l with
  | b0 :: b1 :: b2 :: b3 :: t => Some (of_le32 b0 b1 b2 b3, t)
  | _ => None
  end.

(** lib_compiler/codegen.cpp:544-570, emit without operand. *)
Definition emit0 (i : instr) : res bytes :=
  match i with
  | INS_ADD | INS_SUB | INS_MUL | INS_DIV | INS_MOD | INS_AND | INS_OR
  | INS_NOT | INS_LT | INS_GT | INS_LEQ | INS_GEQ | INS_EQ | INS_NEG
  | INS_SETA | INS_DEREF | INS_NEW_NONE => Ok [opcode i]
  | _ => Stuck SAssert
  end.

(** lib_compiler/codegen.cpp:572-603, emit with one operand. *)
Definition emit1 (i : instr) (o : Z) : res bytes :=
  match i with
  | INS_JMP | INS_FJMP | INS_TJMP | INS_RET | INS_POP | INS_NEW_ARY
  | INS_NEW_INT | INS_NEW_STR | INS_NEW_FLT | INS_NEW_FUNC | INS_NEW_SCALL
  | INS_LOCALS | INS_GLOBALS | INS_GETV | INS_SETV | INS_GETG | INS_SETG
  | INS_ICALL | INS_GETM | INS_SETM | INS_ARY_INIT => Ok (opcode i :: le32 o)
  | _ => Stuck SAssert
  end.

(** lib_compiler/codegen.cpp:605-618, emit with two operands. *)
Definition emit2 (i : instr) (o1 o2 : Z) : res bytes :=
  match i with
  | INS_SCALL | INS_CALL => Ok (opcode i :: le32 o1 ++ le32 o2)
  | _ => Stuck SAssert
  end.

(** An instruction with its operands, as passed to the emit overloads. *)
Inductive ins : Type :=
| I0 (i : instr)
| I1 (i : instr) (o : Z)
| I2 (i : instr) (o1 o2 : Z).

Definition emit (x : ins) : res bytes :=
  match x with
  | I0 i => emit0 i
  | I1 i o => emit1 i o
  | I2 i o1 o2 => emit2 i o1 o2
  end.

(** gMnemonic, lib_compiler/disassembler.cpp:10-32. *)
Definition mnemonic_table : list bytes :=
  map bs
  ["INS_ADD"; "INS_SUB"; "INS_MUL"; "INS_DIV"; "INS_MOD"; "INS_AND"; "INS_OR";
   "INS_NOT"; "INS_NEG";
   "INS_LT"; "INS_GT"; "INS_LEQ"; "INS_GEQ"; "INS_EQ";
   "INS_JMP"; "INS_TJMP"; "INS_FJMP"; "INS_CALL"; "INS_RET"; "INS_SCALL";
   "INS_ICALL";
   "INS_POP";
   "INS_NEW_INT"; "INS_NEW_STR"; "INS_NEW_ARY"; "INS_NEW_NONE"; "INS_NEW_FLT";
   "INS_NEW_FUNC"; "INS_NEW_SYSCALL"; "INS_LOCALS"; "INS_GLOBALS";
   "INS_GETV"; "INS_SETV"; "INS_DEREF"; "INS_SETA";
   "INS_GETG"; "INS_SETG";
   "INS_GETM"; "INS_SETM";
   "INS_ARY_INIT"]%string.

Definition mnemonic (op : Z) : bytes :=
  match znth mnemonic_table op with Some s => s | None => [] end.

(** lib_compiler/disassembler.cpp:49-128.  The result is the text and the
    number of bytes consumed; [0] consumed means "not an instruction".  Note
    that the operand words are read before the opcode is checked: reading past
    the end of the buffer is [Stuck SOob]. *)
Definition disasm (p : bytes) : res (bytes * Z) :=
  match p with
  | [] => Stuck SOob
  | op :: p1 =>
      match of_opcode op with
      | Some (INS_ADD | INS_SUB | INS_MUL | INS_DIV | INS_MOD | INS_AND | INS_OR
             | INS_NOT | INS_NEG | INS_LT | INS_GT | INS_LEQ | INS_GEQ | INS_EQ
             | INS_SETA | INS_DEREF | INS_NEW_NONE) => Ok (mnemonic op, 1)
      | o =>
          match rd32 p1 with
          | None => Stuck SOob
          | Some (v1, p2) =>
              match o with
              | Some (INS_JMP | INS_TJMP | INS_FJMP | INS_RET | INS_POP
                     | INS_NEW_ARY | INS_NEW_INT | INS_NEW_STR | INS_NEW_FLT
                     | INS_NEW_FUNC | INS_NEW_SCALL | INS_GETV | INS_SETV
                     | INS_LOCALS | INS_GLOBALS | INS_GETG | INS_SETG
                     | INS_ICALL | INS_GETM | INS_SETM | INS_ARY_INIT) =>
                  Ok (mnemonic op ++ [32] ++ dec v1, 5)
              | _ =>
                  match rd32 p2 with
                  | None => Stuck SOob
                  | Some (v2, _) =>
                      match o with
                      | Some (INS_SCALL | INS_CALL) =>
                          Ok (mnemonic op ++ [32] ++ dec v1 ++ [32] ++ dec v2, 9)
                      | _ => Ok ([], 0)
                      end
                  end
              end
          end
      end
  end.

(** lib_compiler/disassembler.cpp:130-164, dump: walk the code and list the
    disassembly (function and line headers are left out).  The assert on the
    returned length is kept. *)
Fixpoint dump (fuel : nat) (p : bytes) : res (list bytes) :=
  match p with
  | [] => Ok []
  | _ :: _ =>
      match fuel with
      | O => Stuck SDiverge
      | S f =>
          '(txt, n) <- disasm p ;;
          _ <- assert_ (0 <? n) ;;
          rest <- dump f (zskipn n p) ;;
          Ok (txt :: rest)
      end
  end.

(** lib_compiler/program_builder.h:44-47.  Writing outside the buffer is
    undefined. *)
Definition apply_fixup (code : bytes) (index value : Z) : res bytes :=
  if (0 <=? index) && (index + 4 <=? zlen code) then
    Ok (zfirstn index code ++ le32 value ++ zskipn (index + 4) code)
  else Stuck SOob.
