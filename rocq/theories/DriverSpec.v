(** What it means to run a source program from the command line, told from the
    meaning of the source alone (SrcSem.v, RunSpec.v). *)
From Coq Require Import ZArith List Bool String.
From Verif Require Import Base F32 Program VM AbsHeap GcSpec Host Sema SrcSem CgSpec RunSpec.
Import ListNotations.
Open Scope Z_scope.
Open Scope list_scope.

(** How a result is shown; [ff] shows a float.  Function values are not told
    apart, nor are arrays; nothing is shown for a syscall.  A string is shown
    between quotes as it is. *)
Definition value_text (ff : f32 -> bytes) (x : shown) : bytes :=
  match x with
  | ShNone => bs "none"
  | ShScalar (SInt z) => dec z
  | ShScalar (SFlt f) => ff f
  | ShScalar (SStr s) => [34] ++ s ++ [34]
  | ShScalar (SFun _) => bs "function"
  | ShScalar (SSys _) => []
  | ShArray _ => bs "array"
  | ShDangling => []
  end.
(** The last line of the output.  After a none there is an empty line too. *)
Definition result_line (ff : f32 -> bytes) (x : shown) : bytes :=
  bs "exit: " ++ value_text ff x ++ [10] ++ match x with ShNone => [10] | _ => [] end.

(** [means ff items q w code w'] : run on its own, with the outside world [w], the
    source initialises its globals and calls main without arguments, and the
    outcome is the exit code [code] and the outside world [w']. *)
Section Means.
  Variable ff : f32 -> bytes.
  Variable items : list ritem.
  Variable q : program_t.
  Let start j w := init_result (initial items (entry items q) (sys_index q) (vm_sys q) j (fresh_state w)).
  Let call n f st := run_call items (entry items q) (sys_index q) (vm_sys q) n f [] (next_call st).

  Inductive means (w : world) : Z -> world -> Prop :=
  | means_init_error : forall f j st, named items (bs "main") = Some f ->
      start j w = Some (false, st) -> means w (-5) (s_world st)
  | means_main_error : forall f j st n e st', named items (bs "main") = Some f ->
      start j w = Some (true, st) -> call n f st = Error e st' -> means w (-6) (s_world st')
  | means_result : forall f j st n v st', named items (bs "main") = Some f ->
      start j w = Some (true, st) -> call n f st = Done (v, st') ->
      means w 0 (w_put (s_world st') (result_line ff (shown_value st' v)))
  | means_no_main : named items (bs "main") = None -> means w (-4) w.
End Means.
