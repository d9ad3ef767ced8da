(** nano_t::build: from sources to a program, lib_compiler/nano.cpp:28-75. *)
From Coq Require Import ZArith List Bool.
From Verif Require Import Base Program Source Lexer Ast Parser Sema Optimize Codegen.
Import ListNotations.
Open Scope Z_scope.

(** The loop over the sources, nano.cpp:44-59; importing appends to the source
    manager [m] while the loop runs.  [left] is what the parser's expression
    stack holds between two parses.  The loop has no bound in the code. *)
Fixpoint parse_sources (fuel : nat) (fs : bytes -> option bytes) (m : list source_t)
    (index : Z) (left : list expr) (acc : list item) : res (list item * list source_t) :=
  match znth m index with
  | None => Ok (acc, m)
  | Some src =>
      match fuel with
      | O => Stuck SDiverge
      | S f =>
          match so_data src with
          | None => Stuck SNull                      (* src.data() is null *)
          | Some data =>
              ts <- lex index data ;;
              '(items, m', st) <- parse fs src m left ts ;;
              parse_sources f fs m' (index + 1) (p_exp st) (acc ++ items)
          end
      end
  end.

(** [regs] are the calls of syscall_register made before build (nano.cpp:88-103):
    names and argument counts, in order.  [addr] is the memory layout of the
    syntax tree nodes, [on] the optimize flag.  [None] is the result false
    without an error (no source). *)
Definition compile (addr : nat -> Z) (on : bool) (regs : list (bytes * Z)) (items : list item)
  : res program_t :=
  '(r, n) <- run_sema addr (map (fun x => CSys (fst x) (snd x)) regs ++ map CItem items) ;;
  '(r1, n1) <- run_optimize on r n ;;
  generate r1 n1.

Definition build (fuel : nat) (fs : bytes -> option bytes) (addr : nat -> Z) (on : bool)
    (regs : list (bytes * Z)) (m : list source_t) : res (option program_t) :=
  match m with
  | [] => Ok None
  | _ =>
      '(items, _) <- parse_sources fuel fs m 0 [] [] ;;
      p <- compile addr on regs items ;; Ok (Some p)
  end.
