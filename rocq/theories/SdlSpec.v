(** What drawing means: pictures as functions from places to colours. *)
From Coq Require Import ZArith List Bool.
From Verif Require Import Base F32 VM Sdl.
Import ListNotations.
Open Scope Z_scope.

(** A picture of [x_width] times [x_height] pixels, row by row, in [x_video]. *)
Definition framed (g : gfx) : Prop :=
  0 <= x_width g <= i32_max /\ 0 <= x_height g <= i32_max /\
  zlen (x_video g) = x_width g * x_height g /\ x_width g * x_height g <= i32_max.
Definition inside (g : gfx) (x y : Z) : Prop := 0 <= x < x_width g /\ 0 <= y < x_height g.
Definition pixel (g : gfx) (x y : Z) : option Z := znth (x_video g) (y * x_width g + x).

(** [g'] is [g] with the pixels for which [f] is true in the current colour.  The
    rest of the state is the same. *)
Definition paints (f : Z -> Z -> bool) (g g' : gfx) : Prop :=
  x_window g' = x_window g /\ x_screen g' = x_screen g /\ x_rgb g' = x_rgb g /\
  x_width g' = x_width g /\ x_height g' = x_height g /\ zlen (x_video g') = zlen (x_video g) /\
  forall x y, inside g x y -> pixel g' x y = if f x y then Some (x_rgb g) else pixel g x y.

(** The square of the distance of a pixel from the point between columns [xc - 1]
    and [xc], in the middle of row [yc]; across, the far edge of the pixel counts. *)
Definition far2 (xc yc x y : Z) : Z :=
  let a := if x <? xc then xc - x else x - xc + 1 in a * a + (y - yc) * (y - yc).

(** Coordinates that keep the arithmetic of the drawing functions within 32 bits. *)
Definition modest (b z : Z) : Prop := - b <= z <= b.

(** A screen picture on the surface, three times as wide and high. *)
Definition on_screen (g : gfx) (X Y : Z) : option Z :=
  match x_screen g with Some l => znth l (Y * (3 * x_width g) + X) | None => None end.

(** A number among the arguments, and the whole number it stands for. *)
Definition reads (v : pv) (z : Z) : Prop :=
  v = PS (SInt z) \/ exists f, v = PS (SFlt f) /\ f_to_int f = Ok z.

(** A call with as many arguments as registered.  A new picture is at least as
    wide as high and not enormous; SDL makes a window for it, and the surface, if
    there is one, has nine pixels for each pixel of the picture. *)
Definition sensible (c : answers * drawing * list pv) : Prop :=
  let '(a, f, args) := c in
  (exists name, In (name, zlen args, Some f) sdl_arity) /\
  forall w h, f = D_video -> args = [PS (SInt w); PS (SInt h)] ->
    0 <= h <= w /\ 9 * w <= i32_max /\ w * h <= i32_max /\ a_window a = true /\
    forall l, a_surface a = Some l -> zlen l = 9 * (w * h).
