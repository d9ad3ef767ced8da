(** An ideal heap, the specification of what programs see: values are values,
    only arrays have an identity, nothing is ever moved or freed and memory
    never runs out.  It models no code; it is the reference the collected heap
    of [Gc.v] is compared with. *)
From Coq Require Import ZArith List Bool.
From Verif Require Import Base VM.
Import ListNotations.
Open Scope Z_scope.

Inductive aval : Type :=
| ANone
| AS (s : scell)
| AArr (loc : Z).

(** The arrays allocated so far, by allocation number. *)
Definition aheap : Type := list (list aval).

Definition abs_view (h : aheap) (v : aval) : res (view aval) :=
  match v with
  | ANone => Ok WNone
  | AS s => Ok (WS s)
  | AArr l => match znth h l with
              | Some x => Ok (WA x)
              | None => Stuck SDangling
              end
  end.

Definition abs_set (h : aheap) (p : aval) (i : Z) (v : aval) : res aheap :=
  match p with
  | AArr l => match znth h l with
              | Some x => if (0 <=? i) && (i <? zlen x) then Ok (zupd h l (zupd x i v))
                          else Stuck SOob
              | None => Stuck SDangling
              end
  | ANone => Stuck SNull
  | AS _ => Stuck SAssert
  end.

Definition abs_ops : hops aval aheap :=
  Hops ANone abs_view
       (fun h s => Ok (h, AS s))
       (fun h l => Ok (h ++ [l], AArr (zlen h)))
       abs_set
       (fun _ => false)
       (fun h rs => Ok (h, rs)).
