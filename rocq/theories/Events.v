(** Two parts of the vm that [VM.v] leaves out: vm_t::reset, and the calls of the
    handlers on_thread_error and on_thread_finish.

    A handler is a callback of the host.  It is modelled by the sequence of calls
    made to it, each with the thread it gets, and it does not change the vm.  The
    other handlers of lib_vm/vm.h:22-59 replace operators on user values; they are
    null unless a host sets them and are not modelled. *)
From Coq Require Import ZArith List Bool.
From Verif Require Import Base Program Source VM Gc Host.
Import ListNotations.
Open Scope Z_scope.

(** ** vm_t::reset, lib_vm/vm.cpp:33-41: the collector forgets every value and the
    threads are deleted; the globals are not touched. *)
Definition vm_reset (v : vm ptr heap) : vm ptr heap :=
  Vm (gc_reset (vm_heap v)) (vm_glob v) (vm_world v) [].

(** ** The handlers *)
Inductive event (P : Type) : Type :=
| OnError (t : thread P)        (* handlers.on_thread_error(t) *)
| OnFinish (t : thread P).      (* handlers.on_thread_finish(t) *)
Arguments OnError {P} t.
Arguments OnFinish {P} t.

Section Events.
  Context {P H : Type}.
  Variable ops : hops P H.
  Variable prog : program_t.
  Notation mst := (mst P H).

  (** thread.cpp:874-884, after an instruction that finished the thread *)
  Definition fire (t : thread P) : list (event P) :=
    (if no_error t then [] else [OnError t]) ++ [OnFinish t].

  (** thread.cpp:865-891, the loop of [resume_loop] with the calls it makes *)
  Fixpoint resume_loop_ev (cycles : nat) (s : mst) : res (list (event P) * mst) :=
    match cycles with
    | O => Ok ([], s)
    | S n =>
        bind (tick_gc ops s) (fun '(_, s1) =>
        bind (step_imp ops prog s1) (fun '(_, s2) =>
        if t_fin (m_cur s2) then Ok (fire (m_cur s2), s2)
        else if t_hal (m_cur s2) then Ok ([], s2)
        else resume_loop_ev n s2))
    end.
  (** thread.cpp:865-891 *)
  Definition resume_ev (cycles : nat) (s : mst) : res (list (event P) * bool * mst) :=
    if t_fin (m_cur s) then Ok ([], false, s) else
    bind (resume_loop_ev cycles (Mst (m_heap s) (m_glob s) (m_world s) (m_pre s)
                                     (t_set_hal (m_cur s) false) (m_post s)))
      (fun '(ev, s') => Ok (ev, no_error (m_cur s'), s')).

  (** vm.cpp:92-117, [vm_round] with the calls it makes *)
  Fixpoint vm_round_ev (n : nat) (cycles : nat) (h : H) (g : list P) (w : world)
           (pre post : list (thread P)) : res (list (event P) * bool * vm P H) :=
    match post with
    | [] => Ok ([], true, Vm h g w pre)
    | t :: post' =>
        match n with
        | O => Stuck SDiverge
        | S n' =>
            if negb (t_waits t =? 0) then
              bind (chk32 (t_waits t - 1)) (fun k =>
              vm_round_ev n' cycles h g w (pre ++ [t_set_waits t k]) post')
            else if t_fin t || negb (no_error t) then
              vm_round_ev n' cycles h g w pre post'
            else
              bind (resume_ev cycles (Mst h g w pre t post')) (fun '(ev, ok, s) =>
              if ok then
                bind (vm_round_ev n' cycles (m_heap s) (m_glob s) (m_world s)
                        (m_pre s ++ [m_cur s]) (m_post s)) (fun '(ev', ok', v) =>
                Ok (ev ++ ev', ok', v))
              else if no_error (m_cur s) then Stuck SAssert
              else Ok (ev, false, join s))
        end
    end.
  Definition vm_resume_ev (cycles : nat) (v : vm P H) : res (list (event P) * bool * vm P H) :=
    vm_round_ev (List.length (vm_threads v)) cycles
      (vm_heap v) (vm_glob v) (vm_world v) [] (vm_threads v).

  (** vm.cpp:66-70, [call_loop] with the calls it makes *)
  Fixpoint call_loop_ev (fuel : nat) (s : mst) : res (list (event P) * mst) :=
    if t_fin (m_cur s) || negb (no_error (m_cur s)) then Ok ([], s) else
    match fuel with
    | O => Stuck SDiverge
    | S n =>
        bind (resume_ev (Z.to_nat (128 * 1024)) s) (fun '(ev, ok, s') =>
        if ok then bind (call_loop_ev n s') (fun '(ev', s'') => Ok (ev ++ ev', s''))
        else Ok (ev, s'))
    end.
  (** vm.cpp:55-77 *)
  Definition call_once_ev (fuel : nat) (v : vm P H) (f : function_t) (argv : list P)
    : res (list (event P) * (bool * P * option terr) * vm P H) :=
    bind (vm_new_thread ops v f argv) (fun '(ok, v1) =>
    bind (gc_collect_vm ops v1) (fun v2 =>
    if negb ok then Stuck SNull else
    bind (split 0 v2) (fun s =>
    bind (call_loop_ev fuel s) (fun '(ev, s') =>
    match t_err (m_cur s') with
    | Some e => Ok (ev, (false, h_null ops, Some e), join s')
    | None =>
        bind (return_value ops (m_cur s')) (fun p =>
        Ok (ev, (true, p, None), join s'))
    end)))).

  (** ** Specification: the calls on behalf of one thread

      [history s evs s'] : the running thread of [s] goes through any sequence of
      resume, step_inst and step_line, and in between other code may change the
      memory, the other threads and everything of this thread that is not its
      result; [evs] are the calls of the handlers with this thread. *)
  Inductive history : mst -> list (event P) -> mst -> Prop :=
  | hist_end : forall s, history s [] s
  | hist_resume : forall n s ev ok s1 evs s2,
      resume_ev n s = Ok (ev, ok, s1) -> history s1 evs s2 -> history s (ev ++ evs) s2
  | hist_inst : forall s ok s1 evs s2,
      step_inst ops prog s = Ok (ok, s1) -> history s1 evs s2 -> history s evs s2
  | hist_line : forall fuel s ok s1 evs s2,
      step_line ops prog fuel s = Ok (ok, s1) -> history s1 evs s2 -> history s evs s2
  | hist_other : forall s s1 evs s2,
      t_fin (m_cur s1) = t_fin (m_cur s) -> t_err (m_cur s1) = t_err (m_cur s) ->
      history s1 evs s2 -> history s evs s2.
End Events.

(** ** source_manager_t::get_line, lib_common/source.h:114-119: the text of a line,
    empty if the source has no such line *)
Definition sm_line (m : list source_t) (l : line_t) : res bytes :=
  _ <- assert_ ((0 <=? l_file l) && (l_file l <? zlen m)) ;;
  match znth m (l_file l) with
  | None => Stuck SOob
  | Some s => o <- get_line s (to_u32 (l_line l)) ;;
              Ok (match o with Some b => b | None => [] end)
  end.
