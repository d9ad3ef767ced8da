(** The command line interpreter, driver/driver.cpp. *)
From Coq Require Import ZArith List Bool String.
From Verif Require Import Base F32 Program Source Build VM Gc GcSpec Host.
Import ListNotations.
Open Scope Z_scope.

(** print_result, driver/driver.cpp:100-125: what it writes for a value that the
    host sees as [x].  A none is a null pointer, on which is_a works
    (lib_vm/value.h:42-45); the newline of line 107 is there as well as that of
    line 124.  [ff] is "%f" of a float; "%s" stops at a NUL.  A value of kind
    syscall has no case. *)
Definition print_result (ff : f32 -> bytes) (x : shown) : res bytes :=
  match x with
  | ShDangling => Stuck SDangling
  | _ =>
      Ok (bs "exit: " ++
          match x with
          | ShNone => bs "none" ++ [10]
          | ShScalar (SInt z) => dec z
          | ShScalar (SStr s) => [34] ++ cstr s ++ [34]
          | ShArray _ => bs "array"
          | ShScalar (SFlt f) => ff f
          | ShScalar (SFun _) => bs "function"
          | _ => []
          end ++ [10])
  end.

(** What a run leaves behind: the exit code, the standard output written and the
    standard input left, the contents of temp.bin if it was written, and the
    message and line that on_error (driver.cpp:77-84) prints.  The number of the
    file and the other texts on stderr are
    left out. *)
Record ran : Type := Ran {
  d_code : Z;
  d_world : world;
  d_image : option bytes;
  d_blame : option (errkind * Z)
}.

Section Main.
  Variable fs : bytes -> option bytes.
  (** Whether fopen can create temp.bin. *)
  Variable can : bool.
  Variable fuel : nat.
  Variable addr : nat -> Z.
  Variable ff : f32 -> bytes.
  (** The collector and a bound on the loop of call_once. *)
  Variable c : gc_cfg.
  Variable N : nat.

  (** driver.cpp:137-142: [None] is the return for a source that cannot be loaded. *)
  Fixpoint driver_load (m : list source_t) (argv : list bytes) : option (list source_t) :=
    match argv with
    | [] => Some m
    | a :: r => let (ok, m') := sm_load fs m a in if ok then driver_load m' r else None
    end.

  (** driver.cpp:155-161 *)
  Definition driver_regs : list (bytes * Z) := builtin_arity ++ driver_arity.

  (** driver.cpp:193-223: [q] is the program with its syscalls bound, [image] what
      serial_save left in temp.bin. *)
  Definition driver_run (q : program_t) (image : option bytes) (w : world) : res ran :=
    match function_find q (bs "main") with
    | None => Ok (Ran (-4) w image None)
    | Some f =>
        '(x, v1) <- host_step q (cfg_ops c) N HCallInit (vm_start 0 w) ;;
        match x with
        | SeenFlag true =>
            '(y, v2) <- host_step q (cfg_ops c) N (HCallOnce f []) v1 ;;
            match y with
            | SeenCall true r _ =>
                t <- print_result ff r ;;
                Ok (Ran 0 (w_put (vm_world v2) t) image None)
            | _ => Ok (Ran (-6) (vm_world v2) image None)
            end
        | _ => Ok (Ran (-5) (vm_world v1) image None)
        end
    end.

  (** driver.cpp:128-224.  [argv] are the arguments after the program's name, [w]
      the outside world at the start.  build fails by an exception that it
      catches; on_error does not return. *)
  Definition driver_main (argv : list bytes) (w : world) : res ran :=
    match driver_load [] argv with
    | None => Ok (Ran (-2) w None None)
    | Some [] => Ok (Ran (-1) w None None)
    | Some m =>
        match build fuel fs addr true driver_regs m with
        | Stuck x => Stuck x
        | Err e l => Ok (Ran 1 w None (Some (e, l)))
        | Ok None => Ok (Ran 1 w None None)
        | Ok (Some p) =>
            let q := driver_resolve p in
            driver_run q (if can then Some (serial_save q) else None) w
        end
    end.
End Main.
