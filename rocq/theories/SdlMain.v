(** The main function of the SDL driver, driver_sdl/driver.cpp:218-257 and 303-428.

    Its functions are functions of the host (VM.v, [F_host]): the machine records
    the calls, and the state of the drawing is what the functions of Sdl.v make of
    them, one after the other.  None of them looks at the picture to find its
    answer, so the machine needs only the answers of SDL. *)
From Coq Require Import ZArith List Bool String.
From Verif Require Import Base F32 Program Source Build VM Gc GcSpec Host DriverMain Sdl.
Import ListNotations.
Open Scope Z_scope.

Definition calls : Type := list (bytes * list harg).

(** What SDL does: whether SDL_Init succeeds, what becomes of the window and the
    surface at the last of a list of calls, and which keys are down at that time. *)
Record sdl : Type := MkSdl {
  sdl_init : bool;
  sdl_window : calls -> answers;
  sdl_keys : calls -> bytes -> bool
}.

(** driver.cpp:339-348 *)
Definition sdl_regs : list (bytes * Z) := builtin_arity ++ map fst sdl_arity.

(** driver.cpp:356-366 *)
Definition sdl_map : list (bytes * sysfn) :=
  [(bs "cls", F_host (bs "cls") 0); (bs "rand", F_rand); (bs "video", F_host (bs "video") 2);
   (bs "plot", F_host (bs "plot") 2); (bs "flip", F_host (bs "flip") 0); (bs "setrgb", F_host (bs "setrgb") 3);
   (bs "circle", F_host (bs "circle") 3); (bs "line", F_host (bs "line") 4); (bs "sleep", F_sleep);
   (bs "keydown", F_host (bs "keydown") 1)].
Definition sdl_resolve (p : program_t) : program_t :=
  fold_left (fun q x => snd (syscall_resolve q (fst x) (snd x))) sdl_map (builtins_resolve p).

(** driver.cpp:218-257, vm_keydown on a string; [down] are the keys held. *)
Definition key_names : list bytes := [bs "up"; bs "down"; bs "left"; bs "right"; bs "escape"; bs "space"].
Definition keydown (down : bytes -> bool) (s : bytes) : hret :=
  if existsb (bytes_eqb (cstr s)) key_names then HrInt (if down (cstr s) then 1 else 0) else HrNone.

(** The value that the last of the calls pushes; for video see driver.cpp:84-91. *)
Definition sdl_host (e : sdl) (l : calls) : option hret :=
  match rev l with
  | (name, args) :: _ =>
      Some (if bytes_eqb name (bs "video") then
              match args with
              | [HaVal (SInt _); HaVal (SInt _)] =>
                  let a := sdl_window e l in
                  HrInt (if a_window a then match a_surface a with Some _ => 0 | None => 1 end else 1)
              | _ => HrInt 0
              end
            else if bytes_eqb name (bs "keydown") then
              match args with [HaVal (SStr s)] => keydown (sdl_keys e l) s | _ => HrNone end
            else HrNone)
  | [] => Some HrNone
  end.

(** The picture after the calls [l], which come after the calls [before]. *)
Definition pv_of (a : harg) : pv := match a with HaNone => PNone | HaVal s => PS s | HaArray n => PA n end.
Definition drawing_of (name : bytes) : option drawing :=
  match find (fun x => bytes_eqb (fst (fst x)) name) sdl_arity with Some (_, d) => d | None => None end.
Fixpoint replay (e : sdl) (before l : calls) (g : gfx) : res gfx :=
  match l with
  | [] => Ok g
  | (name, args) :: l =>
      g' <- match drawing_of name with
            | Some f => '(_, g') <- draw (sdl_window e (before ++ [(name, args)])) f (map pv_of args) g ;; Ok g'
            | None => Ok g
            end ;;
      replay e (before ++ [(name, args)]) l g'
  end.

(** The world of a process that starts: nothing has been called. *)
Definition sdl_world (e : sdl) (w : world) : world :=
  World (w_out w) (w_in w) (w_rng w) (w_sin w) (w_cos w) (w_tan w) [] (sdl_host e).

(** What a run leaves behind.  The exit code is [None] while it is still running. *)
Record sdl_ran : Type := SdlRan {
  r_code : option Z;
  r_world : world;
  r_gfx : gfx;
  r_blame : option (errkind * Z)
}.

Section Main.
  Variable fs : bytes -> option bytes.
  Variable fuel : nat.
  Variable addr : nat -> Z.
  Variable c : gc_cfg.
  Variable N : nat.
  Variable e : sdl.

  (** driver.cpp:386-406.  Each element of [sched] is one pass of the loop: whether
      SDL_GetTicks() > tick_mark, and whether there is a quit event.  Time is not
      modelled, any passes can be given.  The result says whether the loop was
      left. *)
  Fixpoint sdl_loop (q : program_t) (sched : list (bool * bool)) (v : vm ptr heap) : res (bool * vm ptr heap) :=
    match sched with
    | [] => Ok (false, v)
    | (due, quit) :: r =>
        '(go, v') <- (if due then vm_resume (cfg_ops c) q (Z.to_nat 1024) v else Ok (true, v)) ;;
        if go then if quit then Ok (true, v') else sdl_loop q r v' else Ok (true, v')
    end.

  (** driver.cpp:368-428.  The result of call_init is only reported.  has_error is
      false (lib_vm/vm.cpp:119-121), so the branch of lines 408-422 is never taken. *)
  Definition sdl_run (q : program_t) (sched : list (bool * bool)) (w : world) : res sdl_ran :=
    match function_find q (bs "main") with
    | None => Ok (SdlRan (Some 1) w gfx_start None)
    | Some f =>
        '(_, v1) <- host_step q (cfg_ops c) N HCallInit (vm_start 0 w) ;;
        '(y, v2) <- host_step q (cfg_ops c) N (HThread f []) v1 ;;
        match y with
        | SeenFlag true =>
            '(over, v3) <- sdl_loop q sched v2 ;;
            g <- replay e [] (w_log (vm_world v3)) gfx_start ;;
            Ok (if over then SdlRan (Some 0) (w_put (vm_world v3) (bs "exit: 0" ++ [10])) g None
                else SdlRan None (vm_world v3) g None)
        | _ =>
            g <- replay e [] (w_log (vm_world v2)) gfx_start ;;
            Ok (SdlRan (Some 1) (vm_world v2) g None)
        end
    end.

  (** driver.cpp:313-428; on_error (303-310) exits with 1. *)
  Definition sdl_main (argv : list bytes) (sched : list (bool * bool)) (w : world) : res sdl_ran :=
    if negb (sdl_init e) then Ok (SdlRan (Some 1) w gfx_start None) else
    match driver_load fs [] argv with
    | None => Ok (SdlRan (Some (-2)) w gfx_start None)
    | Some [] => Ok (SdlRan (Some (-1)) w gfx_start None)
    | Some m =>
        match build fuel fs addr true sdl_regs m with
        | Stuck x => Stuck x
        | Err er l => Ok (SdlRan (Some 1) w gfx_start (Some (er, l)))
        | Ok None => Ok (SdlRan (Some 1) w gfx_start None)
        | Ok (Some p) => sdl_run (sdl_resolve p) sched (sdl_world e w)
        end
    end.
End Main.
