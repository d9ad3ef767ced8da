(** Small programs used to show that hypotheses of theorems are satisfiable. *)
From Coq Require Import ZArith List Bool String.
From Verif Require Import Base F32 Instr Program VM Gc GcSpec Host.
Import ListNotations.
Open Scope Z_scope.
Open Scope string_scope.

Fixpoint asm (l : list ins) : bytes :=
  match l with
  | [] => []
  | x :: r => match emit x with Ok b => (b ++ asm r)%list | _ => asm r end
  end.

(** A world with an empty input; sin, cos and tan are left at zero. *)
Definition world0 : world :=
  World [] [] 1 (fun _ => f_zero) (fun _ => f_zero) (fun _ => f_zero) [] (fun _ => Some HrNone).

(** function main()
      var a = new_array(3)
      a[1] = 'h' + 'i'
      puts(a[1])
      return a *)
Definition demo_code : list ins :=
  [I1 INS_LOCALS 1;
   I1 INS_NEW_ARY 3; I1 INS_SETV 0;
   I1 INS_NEW_STR 0; I1 INS_NEW_STR 1; I0 INS_ADD;
   I1 INS_NEW_INT 1; I1 INS_GETV 0; I0 INS_SETA;
   I1 INS_NEW_INT 1; I1 INS_GETV 0; I0 INS_DEREF;
   I2 INS_SCALL 1 0; I1 INS_POP 1;
   I1 INS_GETV 0; I1 INS_RET 1].
Definition demo_main : function_t := Func (bs "main") 0 100 [Ident (bs "a") 0] [].
Definition demo_prog : program_t :=
  Prog [] [Sysc (bs "puts") (Some F_puts)] [demo_main] (asm demo_code) []
       [bs "h"; bs "i"].

Definition cfg_never : gc_cfg := Cfg 4096 20 (fun _ => false).
Definition cfg_always : gc_cfg := Cfg 4096 20 (fun _ => true).
Definition cfg_ship : gc_cfg := Cfg arena_size 20 (should_collect arena_size).

Definition demo_ops : list hostop := [HThread demo_main []; HResume 10; HResume 10; HCollect].

Example demo_runs :
  match host_gc demo_prog 3 (map (pair cfg_always) demo_ops) (vm_start 0 world0) with
  | Ok (xs, v) =>
      xs = map SeenFlag [true; true; true; true] /\ w_out (vm_world v) = bs "hi
" /\ map (fun t => (t_fin t, t_cyc t)) (vm_threads v) = [(true, 16)] /\
      option_map (shows (vm_heap v)) (at_place (vm_heap v) (vm_roots v) (1, 0, [1])) =
        Some (ShScalar (SStr (bs "hi")))
  | _ => False
  end.
Proof. vm_compute. repeat split. Qed.
