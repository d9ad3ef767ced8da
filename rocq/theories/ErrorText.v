(** The names of runtime errors, lib_vm/thread_error.cpp. *)
From Coq Require Import ZArith List String.
From Verif Require Import Base VM.
Import ListNotations.
Open Scope Z_scope.

(** get_thread_error, thread_error.cpp:6-32; [None] is e_success.  The cases of
    e_bad_prepare and e_bad_array_object are missing: they end in assert(false). *)
Definition get_thread_error (e : option terr) : res bytes :=
  match e with
  | None => Ok (bs "e_success")
  | Some e_max_cycle_count => Ok (bs "e_max_cycle_count")
  | Some e_bad_getv => Ok (bs "e_bad_getv")
  | Some e_bad_setv => Ok (bs "e_bad_setv")
  | Some e_bad_num_args => Ok (bs "e_bad_num_args")
  | Some e_bad_syscall => Ok (bs "e_bad_syscall")
  | Some e_bad_opcode => Ok (bs "e_bad_opcode")
  | Some e_bad_set_global => Ok (bs "e_bad_set_global")
  | Some e_bad_get_global => Ok (bs "e_bad_get_global")
  | Some e_bad_pop => Ok (bs "e_bad_pop")
  | Some e_bad_divide_by_zero => Ok (bs "e_bad_divide_by_zero")
  | Some e_stack_overflow => Ok (bs "e_stack_overflow")
  | Some e_stack_underflow => Ok (bs "e_stack_underflow")
  | Some e_bad_globals_size => Ok (bs "e_bad_globals_size")
  | Some e_bad_array_bounds => Ok (bs "e_bad_array_bounds")
  | Some e_bad_type_operation => Ok (bs "e_bad_type_operation")
  | Some e_bad_argument => Ok (bs "e_bad_argument")
  | Some e_bad_array_index => Ok (bs "e_bad_array_index")
  | Some e_bad_member_access => Ok (bs "e_bad_member_access")
  | Some e_bad_prepare | Some e_bad_array_object => Stuck SAssert
  end.
