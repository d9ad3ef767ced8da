(** Specification vocabulary for the collector: what can be seen of a heap by
    walking through arrays from the roots.  Nothing here mentions how the
    collector works. *)
From Coq Require Import ZArith List Bool.
From Verif Require Import Base VM Gc.
Import ListNotations.
Open Scope Z_scope.

(** What a pointer shows when it is dereferenced. *)
Inductive shown : Type :=
| ShNone
| ShScalar (s : scell)
| ShArray (size : Z)
| ShDangling.

Definition shows (h : heap) (p : ptr) : shown :=
  match p with
  | None => ShNone
  | Some a => match read h a with
              | None => ShDangling
              | Some (KS s) => ShScalar s
              | Some (KA l) => ShArray (zlen l)
              end
  end.

(** Walk from [p] by indexing with each element of [path] in turn. *)
Fixpoint follow (h : heap) (p : ptr) (path : list Z) : option ptr :=
  match path with
  | [] => Some p
  | i :: r =>
      match p with
      | None => None
      | Some a => match read h a with
                  | Some (KA l) => match znth l i with
                                   | Some q => follow h q r
                                   | None => None
                                   end
                  | _ => None
                  end
      end
  end.

(** A place: root list, index in it, and a walk from there. *)
Definition place : Type := Z * Z * list Z.
Definition at_place (h : heap) (rs : list (list ptr)) (x : place) : option ptr :=
  let '(i, j, path) := x in
  match znth rs i with
  | None => None
  | Some l => match znth l j with
              | None => None
              | Some p => follow h p path
              end
  end.

(** A place holds the array at address [a]. *)
Definition array_at (h : heap) (rs : list (list ptr)) (x : place) (a : addr) : Prop :=
  at_place h rs x = Some (Some a) /\ exists l, read h a = Some (KA l).

(** Two rooted heaps show the same values at the same places, with the same
    aliasing between arrays. *)
Definition same_graph (h : heap) (rs : list (list ptr))
                      (h' : heap) (rs' : list (list ptr)) : Prop :=
  (forall x, option_map (shows h) (at_place h rs x) =
             option_map (shows h') (at_place h' rs' x)) /\
  (forall x y a b a' b',
     array_at h rs x a -> array_at h rs y b ->
     array_at h' rs' x a' -> array_at h' rs' y b' ->
     (a = b <-> a' = b')).

(** The bytes a value takes: a header of eight bytes; behind it the characters
    of a string and its terminating NUL, or eight bytes for each element of an
    array. *)
Definition bytes_of (c : cell) : Z :=
  match c with
  | KS (SStr s) => 8 + (zlen s + 1)
  | KS _ => 8
  | KA l => 8 + 8 * zlen l
  end.

(** Every value lies inside the used part of its arena. *)
Definition in_arena (h : heap) : Prop :=
  (forall s, 0 <= g_head h s) /\
  forall s o c, g_mem h s o = Some c -> 0 <= o /\ o + cell_size c <= g_head h s.

(** No reachable pointer dangles and no reachable string contains a NUL. *)
Definition safe_roots (h : heap) (rs : list (list ptr)) : Prop :=
  in_arena h /\
  forall x p, at_place h rs x = Some p ->
    shows h p <> ShDangling /\ forall s, shows h p = ShScalar (SStr s) -> ~ In 0 s.

(** Some reachable array contains itself, directly or through others. *)
Definition cyclic (h : heap) (rs : list (list ptr)) : Prop :=
  exists x a path, at_place h rs x = Some (Some a) /\ path <> [] /\
                   follow h (Some a) path = Some (Some a).
