(** C99: the code of every compiled program keeps a stack discipline. *)
From Coq Require Import ZArith List Bool Lia ZifyBool String.
From Verif Require Import Base BaseFacts F32 Instr InstrSpec Program VM AbsHeap VmSpec CgSpec Ast Source Lexer Parser Sema Codegen Optimize Build
  PropertiesCodegen PropertiesBuild PropertiesBuiltins SafeSpec SafeBuild.
Import ListNotations.
Open Scope Z_scope.

(** ** C99 Compiled code keeps a stack discipline

    [q] is a compiled program whose syscalls the host has bound to functions
    that take as many arguments as it registered. *)
Theorem C99_stack_discipline : forall fuel fs addr on regs m p q,
  build fuel fs addr on regs m = Ok (Some p) -> fits p -> bound p q -> honest regs q -> verified q.
Proof. exact build_verified. Qed.

Lemma driver_bound p : bound p (driver_resolve p).
Proof.
  destruct (C71_others_untouched p _ _ (or_intror (conj eq_refl eq_refl))) as (L & _ & _ & F & C & _ & S).
  constructor; auto. apply (znth_ext _ _ (eq_trans (zlen_map _ _) (eq_trans L (eq_sym (zlen_map _ _))))).
  intros i _. rewrite !znth_map, driver_resolve_nth.
  assert (G : forall m s, s_name (fold_left bind_one m s) = s_name s).
  { induction m as [|x m IH]; intros s0; cbn [fold_left]; [reflexivity|]. rewrite IH. unfold bind_one. destruct (bytes_eqb _ _); reflexivity. }
  assert (G2 : forall s, s_name (bind_builtin s) = s_name s) by (intros s0; unfold bind_builtin; destruct (map_find _ _); reflexivity).
  destruct (znth (p_syscalls p) i) as [s|]; cbn [option_map]; [|reflexivity]. rewrite G2, G. reflexivity.
Qed.

(** The command line driver keeps its side. *)
Theorem C99_driver_programs : forall fuel fs addr on regs m p, incl regs (builtin_arity ++ driver_arity) ->
  build fuel fs addr on regs m = Ok (Some p) -> fits p -> verified (driver_resolve p).
Proof.
  intros fuel fs addr on regs m p I B F. eapply C99_stack_discipline; [exact B|exact F|apply driver_bound|].
  intros name a s J. apply driver_honest. apply I. exact J.
Qed.

(** A program with globals, locals, calls of every kind, branches and loops. *)
Definition disc_text : bytes := bs "
var total = 3
function add(x, y)
  var z = x + y
  if (z > total)
    z = max(z, total)
  else
    return none
  end
  return z
end
function main(n)
  var i
  var a = [1, 2, 3]
  var f = add
  for (i = 0 to n)
    a[0] = add(i, f(i, 2))
    while (a[0] > 5)
      total = total + a[0]
      a[0] = a[0] - 1
    end
  end
  print(total)
  new_thread(add, 1, 2)
end
"%string.
Definition disc_build : res (option program_t) :=
  build 5 (fun _ => None) Z.of_nat true (driver_arity ++ builtin_arity) (snd (sm_load_from_string [] disc_text)).
Definition disc_prog : program_t := match disc_build with Ok (Some p) => p | _ => Prog [] [] [] [] [] [] end.
Example C99_ex : disc_build = Ok (Some disc_prog) /\ fits disc_prog /\ incl (driver_arity ++ builtin_arity) (builtin_arity ++ driver_arity) /\
  zlen (p_code disc_prog) = 374 /\ map f_name (p_functions disc_prog) = map bs ["add"; "main"; "@init"]%string /\
  zlen (filter (fun s => match s_call s with Some _ => true | None => false end) (p_syscalls (driver_resolve disc_prog))) = 22.
Proof.
  split; [vm_compute; reflexivity|]. split; [apply fitsb_ok; vm_compute; reflexivity|].
  split; [intros x I; apply in_app_iff in I; apply in_app_iff; tauto|].
  vm_compute. repeat split.
Qed.
Print Assumptions C99_stack_discipline.
Print Assumptions C99_driver_programs.
