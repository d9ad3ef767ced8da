(** What an image is expected to preserve, stated without the reader/writer. *)
From Coq Require Import ZArith List Bool Sorted.
From Verif Require Import Base Program.
Import ListNotations.
Open Scope Z_scope.

(** A text that survives the C-string based format. *)
Definition str_wf (s : bytes) : Prop :=
  zlen s < 256 /\ Forall (fun c => 0 < c < 256) s.

Definition count_ok {A} (l : list A) : Prop := zlen l <= i32_max.

Definition ident_wf (i : identifier_t) : Prop :=
  str_wf (i_name i) /\ in_i32 (i_offset i) = true.

Definition func_wf (f : function_t) : Prop :=
  str_wf (f_name f) /\ in_i32 (f_start f) = true /\ in_i32 (f_end f) = true /\
  Forall ident_wf (f_locals f) /\ Forall ident_wf (f_args f) /\
  count_ok (f_locals f) /\ count_ok (f_args f).

Definition line_wf (x : Z * line_t) : Prop :=
  in_i32 (fst x) = true /\ in_i32 (l_file (snd x)) = true /\ in_i32 (l_line (snd x)) = true.

(** keys strictly increasing, as in any std::map *)
Definition lines_sorted (m : list (Z * line_t)) : Prop :=
  StronglySorted (fun a b => fst a < fst b) m.

Definition prog_wf (p : program_t) : Prop :=
  Forall (fun s => str_wf (s_name s)) (p_syscalls p) /\ count_ok (p_syscalls p) /\
  Forall func_wf (p_functions p) /\ count_ok (p_functions p) /\
  bytes_ok (p_code p) /\ count_ok (p_code p) /\
  Forall line_wf (p_lines p) /\ lines_sorted (p_lines p) /\ count_ok (p_lines p) /\
  Forall str_wf (p_strings p) /\ count_ok (p_strings p).

(** Everything but the globals table and the syscall bindings. *)
Definition preserved (p q : program_t) : Prop :=
  map s_name (p_syscalls q) = map s_name (p_syscalls p) /\
  p_functions q = p_functions p /\
  p_code q = p_code p /\
  p_lines q = p_lines p /\
  p_strings q = p_strings p.

(** line_t comparison operators, lib_common/types.h:20-36 *)
Definition line_eq (a b : line_t) : bool :=
  (l_file a =? l_file b) && (l_line a =? l_line b).
Definition line_ne (a b : line_t) : bool :=
  negb (l_file a =? l_file b) || negb (l_line a =? l_line b).
Definition line_lt (a b : line_t) : bool :=
  if l_file a <? l_file b then true
  else if l_file a =? l_file b then l_line a <? l_line b
  else false.
