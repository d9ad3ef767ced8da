(** The compiled program object and its image format. *)
From Coq Require Import ZArith List Bool String.
From Verif Require Import Base Instr.
Import ListNotations.
Open Scope Z_scope.

(** lib_common/types.h:39-44 *)
Record identifier_t : Type := Ident { i_name : bytes; i_offset : Z }.

(** lib_common/types.h:46-73 *)
Record function_t : Type := Func {
  f_name : bytes;
  f_start : Z;
  f_end : Z;
  f_locals : list identifier_t;
  f_args : list identifier_t
}.

(** The host functions a syscall entry can be bound to: the builtins of
    lib_builtins/builtin.cpp and the I/O functions of driver/driver.cpp. *)
Inductive sysfn : Type :=
| F_abs | F_min | F_max | F_bitand | F_sin | F_cos | F_tan | F_len | F_chr
| F_round | F_ceil | F_floor | F_sqrt | F_new_thread | F_wait | F_new_array
| F_rand | F_getc | F_putc | F_gets | F_puts
| F_host (name : bytes) (n : nat)     (* a function of some other host, taking [n] values *)
| F_sleep.                            (* driver_sdl/driver.cpp:54-62 *)

(** lib_common/program.h:23-26 *)
Record syscall_t : Type := Sysc { s_name : bytes; s_call : option sysfn }.

(** lib_common/program.h:102-118.  The line table (a std::map) is an
    association list sorted by pc. *)
Record program_t : Type := Prog {
  p_globals : list identifier_t;
  p_syscalls : list syscall_t;
  p_functions : list function_t;
  p_code : bytes;
  p_lines : list (Z * line_t);
  p_strings : list bytes
}.

(** lib_common/program.cpp:217-224 *)
Definition p_empty : program_t := Prog [] [] [] [] [] [].

(** std::map<int32_t, line_t>: operator[] assignment (insert or overwrite),
    keeping the keys sorted; program.h:98-100 and program.cpp:70. *)
Fixpoint lt_set (m : list (Z * line_t)) (k : Z) (v : line_t) : list (Z * line_t) :=
  match m with
  | [] => [(k, v)]
  | (k', v') :: t =>
      if k <? k' then (k, v) :: m
      else if k =? k' then (k, v) :: t
      else (k', v') :: lt_set t k v
  end.

Fixpoint lt_find (m : list (Z * line_t)) (k : Z) : option line_t :=
  match m with
  | [] => None
  | (k', v) :: t => if k =? k' then Some v else lt_find t k
  end.

(** lib_common/program.h:46-53 *)
Definition get_line (p : program_t) (pc : Z) : line_t :=
  match lt_find (p_lines p) (to_i32 pc) with Some l => l | None => no_line end.

(** lib_common/program.cpp:226-242 *)
Definition function_find (p : program_t) (name : bytes) : option function_t :=
  find (fun f => bytes_eqb (f_name f) name) (p_functions p).

(** lib_common/program.cpp:244-260 *)
Definition function_find_pc (p : program_t) (pc : Z) : option function_t :=
  find (fun f => (f_start f <=? pc) && (pc <? f_end f)) (p_functions p).

(** lib_common/types.h:65-67 *)
Definition num_args (f : function_t) : Z := zlen (f_args f).

(** lib_common/program.cpp:262-271 *)
Definition syscall_resolve (p : program_t) (name : bytes) (fn : sysfn)
  : bool * program_t :=
  (existsb (fun s => bytes_eqb (s_name s) name) (p_syscalls p),
   Prog (p_globals p)
        (map (fun s => if bytes_eqb (s_name s) name
                       then Sysc (s_name s) (Some fn) else s) (p_syscalls p))
        (p_functions p) (p_code p) (p_lines p) (p_strings p)).

(** lib_compiler/program_builder.h:49-62 *)
Fixpoint find_syscall (l : list syscall_t) (name : bytes) (i : Z) : option Z :=
  match l with
  | [] => None
  | s :: t => if bytes_eqb (s_name s) name then Some i else find_syscall t name (i + 1)
  end.
Definition add_syscall (l : list syscall_t) (name : bytes) : Z * list syscall_t :=
  match find_syscall l name 0 with
  | Some i => (i, l)
  | None => (zlen l, l ++ [Sysc name None])
  end.

(** ** Image writer, program.cpp:12-54 and 122-160.  A FILE is the list of its
    bytes; write errors are not modelled. *)
Definition magic : Z := 76 * 16777216 + 77 * 65536 + 67 * 256 + 67.

Definition w_str (s : bytes) : bytes := le32 (zlen s) ++ s.
Definition w_list {A} (w : A -> bytes) (l : list A) : bytes :=
  le32 (zlen l) ++ flat_map w l.
Definition w_ident (i : identifier_t) : bytes := w_str (i_name i) ++ le32 (i_offset i).
Definition w_func (f : function_t) : bytes :=
  w_str (f_name f) ++ le32 (f_start f) ++ le32 (f_end f)
  ++ w_list w_ident (f_locals f) ++ w_list w_ident (f_args f).
Definition w_line (x : Z * line_t) : bytes :=
  le32 (fst x) ++ le32 (l_file (snd x)) ++ le32 (l_line (snd x)).

Definition serial_save (p : program_t) : bytes :=
  le32 magic
  ++ w_list (fun s => w_str (s_name s)) (p_syscalls p)
  ++ w_list w_func (p_functions p)
  ++ le32 (zlen (p_code p)) ++ p_code p
  ++ w_list w_line (p_lines p)
  ++ w_list w_str (p_strings p).

(** ** Image reader, program.cpp:56-116 and 162-215.

    A reader takes the bytes left in the file and returns the value (or [None]
    when the C++ function returns false) together with the bytes left.  [Stuck]
    is a failed assert or an allocation with a negative size. *)
Definition rd (A : Type) : Type := bytes -> res (option A * bytes).

(** fread of [n] bytes: on a short read everything that is left is consumed. *)
Definition fread (n : Z) (fd : bytes) : option bytes * bytes :=
  if n <=? zlen fd then (Some (zfirstn n fd), zskipn n fd) else (None, []).

(** program.cpp:56-58 *)
Definition c_int : rd Z := fun fd =>
  match fread 4 fd with
  | (Some (b0 :: b1 :: b2 :: b3 :: _), fd') => Ok (Some (of_le32 b0 b1 b2 b3), fd')
  | (_, fd') => Ok (None, fd')
  end.

(** program.cpp:75-89.  A negative size passes the assert and then requests a
    huge allocation (std::string::resize throws): modelled as SOob. *)
Definition c_str : rd bytes := fun fd =>
  '(o, fd1) <- c_int fd ;;
  match o with
  | None => Ok (None, fd1)
  | Some size =>
      _ <- assert_ (size <? 256) ;;
      if size <? 0 then Stuck SOob else
      match fread size fd1 with
      | (Some s, fd2) => Ok (Some (cstr s), fd2)
      | (None, fd2) => Ok (None, fd2)
      end
  end.

(** Sequencing of TRY(...) *)
Definition c_bind {A B} (r : rd A) (k : A -> rd B) : rd B := fun fd =>
  '(o, fd1) <- r fd ;;
  match o with None => Ok (None, fd1) | Some a => k a fd1 end.
Definition c_ret {A} (a : A) : rd A := fun fd => Ok (Some a, fd).

(** for (i = 0; i < n; ++i) TRY(r) *)
Fixpoint c_times {A} (n : nat) (r : rd A) : rd (list A) :=
  match n with
  | O => c_ret []
  | S n' => c_bind r (fun a => c_bind (c_times n' r) (fun l => c_ret (a :: l)))
  end.
Definition c_list {A} (r : rd A) : rd (list A) :=
  c_bind c_int (fun n => c_times (Z.to_nat n) r).

Definition c_ident : rd identifier_t :=
  c_bind c_str (fun n => c_bind c_int (fun o => c_ret (Ident n o))).

(** program.cpp:91-116 *)
Definition c_func : rd function_t :=
  c_bind c_str (fun n => c_bind c_int (fun s => c_bind c_int (fun e =>
  c_bind (c_list c_ident) (fun ls => c_bind (c_list c_ident) (fun ar =>
  c_ret (Func n s e ls ar)))))).

(** program.cpp:60-73 *)
Definition c_line : rd (Z * line_t) :=
  c_bind c_int (fun pc => c_bind c_int (fun f => c_bind c_int (fun l =>
  c_ret (pc, Line f l)))).

(** program.cpp:183-188: the result of reading a syscall name is ignored; the
    entry then keeps an empty (or zero filled) name. *)
Definition c_sys : rd syscall_t := fun fd =>
  '(o, fd1) <- c_str fd ;;
  match o with
  | Some n => Ok (Some (Sysc n None), fd1)
  | None => Ok (Some (Sysc [] None), fd1)
  end.

(** program.cpp:197-202 *)
Definition c_code : rd bytes := c_bind c_int (fun n => fun fd =>
  if n <? 0 then Stuck SOob else
  match fread n fd with
  | (Some s, fd1) => Ok (Some s, fd1)
  | (None, fd1) => Ok (None, fd1)
  end).

Definition c_program : rd program_t :=
  c_bind c_int (fun m =>
  if negb (m =? to_i32 magic) then (fun fd => Ok (None, fd)) else
  c_bind (c_list c_sys) (fun sys =>
  c_bind (c_list c_func) (fun funs =>
  c_bind c_code (fun code =>
  c_bind (c_list c_line) (fun lines =>
  c_bind (c_list c_str) (fun strs =>
  c_ret (Prog [] sys funs code
              (fold_left (fun m x => lt_set m (fst x) (snd x)) lines [])
              strs))))))).

(** program.cpp:162-215: [serial_load file] on a program object whose previous
    content is [old].  The returned flag is the bool result.  The object is
    reset first; on failure part of the new content may have been stored, which
    the model does not track ([None]), except that a bad header leaves the
    object reset. *)
Definition serial_load (old : program_t) (file : bytes)
  : res (bool * option program_t) :=
  '(o, fd) <- c_int file ;;
  match o with
  | None => Ok (false, Some p_empty)
  | Some m =>
      if negb (m =? to_i32 magic) then Ok (false, Some p_empty) else
      '(r, _) <- c_program file ;;
      match r with
      | Some p => Ok (true, Some p)
      | None => Ok (false, None)
      end
  end.
