(** The drawing functions of the SDL driver, driver_sdl/driver.cpp:18-301.  SDL
    itself is outside: whether it makes a window and a surface, and what the
    surface shows at first, are parameters; its pixels are taken to be 32 bits
    wide and its rows three times the width of the picture.  Memory for the
    picture can always be had. *)
From Coq Require Import ZArith List Bool String.
From Verif Require Import Base F32 VM.
Import ListNotations.
Open Scope Z_scope.

(** driver.cpp:18-24, global_t.  [x_screen] are the pixels of the surface, [None]
    a null screen_; [x_video] is the array behind video_, empty for a null
    pointer.  Width and height are unsigned; static storage makes them zero at
    first. *)
Record gfx : Type := Gfx {
  x_window : bool;
  x_screen : option (list Z);
  x_rgb : Z;
  x_width : Z;
  x_height : Z;
  x_video : list Z
}.
Definition gfx_start : gfx := Gfx false None 16777215 0 0 [].
Definition with_video (g : gfx) (v : list Z) : gfx :=
  Gfx (x_window g) (x_screen g) (x_rgb g) (x_width g) (x_height g) v.

(** A write through a pointer into an array. *)
Definition store (l : list Z) (i v : Z) : res (list Z) :=
  match znth l i with Some _ => Ok (zupd l i v) | None => Stuck SOob end.
Fixpoint fill (n : nat) (i c : Z) (l : list Z) : res (list Z) :=
  match n with
  | O => Ok l
  | S n => l' <- store l i c ;; fill n (i + 1) c l'
  end.

(** driver.cpp:41-51, vm_cls: one row after the other *)
Fixpoint cls_rows (n : nat) (w i : Z) (l : list Z) : res (list Z) :=
  match n with
  | O => Ok l
  | S n => l' <- fill (Z.to_nat w) i 0 l ;; cls_rows n w (i + w) l'
  end.
Definition cls (g : gfx) : res gfx :=
  v <- cls_rows (Z.to_nat (x_height g)) (x_width g) 0 (x_video g) ;; Ok (with_video g v).

(** driver.cpp:63-92, vm_video on two ints, with the value it pushes.  [window]:
    SDL_CreateWindow succeeds; [surface]: what SDL_GetWindowSurface gives.  The
    memset has the size of the product, and a negative product is huge. *)
Definition video (window : bool) (surface : option (list Z)) (w h : Z) (g : gfx) : res (Z * gfx) :=
  n <- chk32 (w * h) ;;
  if n <? 0 then Stuck SOob else
  let screen := if window then surface else x_screen g in
  let ok := negb window || match screen with None => true | Some _ => false end in
  Ok (if ok then 1 else 0,
      Gfx window screen (x_rgb g) (to_u32 w) (to_u32 h) (zrepeat 0 n)).

(** driver.cpp:94-107, vm_setrgb on three numbers *)
Definition setrgb (r gr b : Z) (g : gfx) : gfx :=
  Gfx (x_window g) (x_screen g)
      (Z.lor (Z.lor (Z.shiftl (Z.land r 255) 16) (Z.shiftl (Z.land gr 255) 8)) (Z.land b 255))
      (x_width g) (x_height g) (x_video g).

(** driver.cpp:109-121 *)
Definition plot (x y : Z) (g : gfx) : res gfx :=
  match x_screen g with
  | None => Ok g
  | Some _ =>
      if (0 <=? x) && (x <? to_i32 (x_width g)) then
        if (0 <=? y) && (y <? to_i32 (x_height g)) then
          v <- store (x_video g) (to_u32 (y * x_width g) + x) (x_rgb g) ;; Ok (with_video g v)
        else Ok g
      else Ok g
  end.

(** driver.cpp:123-139.  The pointers are compared as addresses. *)
Definition span (x0 x1 y0 : Z) (g : gfx) : res gfx :=
  match x_screen g with
  | None => Ok g
  | Some _ =>
      if (y0 <? 0) || (to_i32 (x_height g) <=? y0) then Ok g else
      let x0 := Z.max x0 0 in
      let x1 := Z.min x1 (to_i32 (x_width g)) in
      let row := to_u32 (x_width g * y0) in
      v <- fill (Z.to_nat (x1 - x0)) (row + x0) (x_rgb g) (x_video g) ;; Ok (with_video g v)
  end.
(** A span given by its centre and half its width *)
Definition span_at (xc d y : Z) (g : gfx) : res gfx :=
  a <- chk32 (xc - d) ;; b <- chk32 (xc + d) ;; span a b y g.

(** driver.cpp:141-173.  [circle_loop] is the loop of lines 161-172, at its head. *)
Fixpoint circle_loop (fuel : nat) (xc yc x y p : Z) (g : gfx) : res gfx :=
  match fuel with
  | O => Stuck SDiverge
  | S fuel =>
      x1 <- chk32 (x + 1) ;;
      if x <=? y then
        '(p1, y1) <- (if p <? 0 then
                        a <- chk32 (2 * x1) ;; b <- chk32 (a + 1) ;; c <- chk32 (p + b) ;; Ok (c, y)
                      else
                        d <- chk32 (x1 - y) ;; a <- chk32 (2 * d) ;; b <- chk32 (a + 1) ;; c <- chk32 (p + b) ;;
                        e <- chk32 (y - 1) ;; Ok (c, e)) ;;
        r1 <- chk32 (yc + y1) ;; g1 <- span_at xc x1 r1 g ;;
        r2 <- chk32 (yc - y1) ;; g2 <- span_at xc x1 r2 g1 ;;
        r3 <- chk32 (yc + x1) ;; g3 <- span_at xc y1 r3 g2 ;;
        r4 <- chk32 (yc - x1) ;; g4 <- span_at xc y1 r4 g3 ;;
        circle_loop fuel xc yc x1 y1 p1 g4
      else Ok g
  end.
Definition circle (xc yc radius : Z) (g : gfx) : res gfx :=
  p <- chk32 (1 - radius) ;;
  g1 <- span_at xc radius yc g ;;
  circle_loop (S (Z.to_nat (radius + 2))) xc yc 0 radius p g1.

(** driver.cpp:175-201.  [line_loop] is the loop of lines 192-194 or 196-198; a
    left shift of a negative number is taken to be a multiplication. *)
Fixpoint line_loop (fuel : nat) (longer : bool) (x y i j stop inc step : Z) (g : gfx) : res gfx :=
  match fuel with
  | O => Stuck SDiverge
  | S fuel =>
      if i =? stop then Ok g else
      let a := Z.shiftr j 16 in
      px <- chk32 (x + (if longer then a else i)) ;;
      py <- chk32 (y + (if longer then i else a)) ;;
      g1 <- plot px py g ;;
      i1 <- chk32 (i + inc) ;; j1 <- chk32 (j + step) ;;
      line_loop fuel longer x y i1 j1 stop inc step g1
  end.
Definition abs32 (z : Z) : res Z := if z <? 0 then chk32 (- z) else Ok z.
Definition line (x0 y0 x1 y1 : Z) (g : gfx) : res gfx :=
  dy <- chk32 (y1 - y0) ;; dx <- chk32 (x1 - x0) ;;
  ay <- abs32 dy ;; ax <- abs32 dx ;;
  let longer := ax <? ay in
  let short := if longer then dx else dy in
  let long := if longer then dy else dx in
  len <- abs32 long ;;
  let inc := if long <? 0 then -1 else 1 in
  step <- (if len =? 0 then Ok 0 else s <- chk32 (short * 65536) ;; Ok (Z.quot s len)) ;;
  line_loop (S (Z.to_nat len)) longer x0 y0 0 0 long inc step g.

(** driver.cpp:271-301, vm_flip.  [s] and [d] are the offsets of the two pointers. *)
Definition block (d j p1 p2 c : Z) (l : list Z) : res (list Z) :=
  a <- store l (d + to_u32 (j + 2)) c ;; b <- store a (d + to_u32 (j + 1)) c ;; e <- store b (d + to_u32 j) c ;;
  a1 <- store e (d + to_u32 (j + 2 + p1)) c ;; b1 <- store a1 (d + to_u32 (j + 1 + p1)) c ;; e1 <- store b1 (d + to_u32 (j + p1)) c ;;
  a2 <- store e1 (d + to_u32 (j + 2 + p2)) c ;; b2 <- store a2 (d + to_u32 (j + 1 + p2)) c ;; store b2 (d + to_u32 (j + p2)) c.
Fixpoint flip_row (n : nat) (v : list Z) (s d x j p1 p2 : Z) (l : list Z) : res (list Z) :=
  match n with
  | O => Ok l
  | S n =>
      match znth v (s + x) with
      | None => Stuck SOob
      | Some c => l' <- block d j p1 p2 c l ;; flip_row n v s d (x + 1) (to_u32 (j + 3)) p1 p2 l'
      end
  end.
Fixpoint flip_rows (n : nat) (h w : Z) (v : list Z) (s d p1 p2 : Z) (l : list Z) : res (list Z) :=
  match n with
  | O => Ok l
  | S n =>
      l' <- flip_row (Z.to_nat h) v s d 0 0 p1 p2 l ;;
      flip_rows n h w v (s + w) (d + to_u32 (p1 * 3)) p1 p2 l'
  end.
Definition flip (g : gfx) : res gfx :=
  match x_screen g with
  | None => Ok g
  | Some l =>
      let w := x_width g in let h := x_height g in
      let p1 := to_u32 (w * 3) in let p2 := to_u32 (p1 + p1) in
      l' <- flip_rows (Z.to_nat h) h w (x_video g) 0 0 p1 p2 l ;;
      Ok (Gfx (x_window g) (Some l') (x_rgb g) w h (x_video g))
  end.

(** ** The syscalls

    [draw env f args g]: the value pushed and the new state; [args] are the
    arguments in the order of the call.  Arguments of other types are ignored. *)
Inductive drawing := D_cls | D_video | D_plot | D_flip | D_setrgb | D_circle | D_line.
(** The answers of SDL to this call. *)
Record answers := Answers { a_window : bool; a_surface : option (list Z) }.

(** driver.cpp:41-301.  Other numbers of arguments do not occur. *)
Definition draw (a : answers) (f : drawing) (args : list pv) (g : gfx) : res (pv * gfx) :=
  match f, args with
  | D_cls, [] => g' <- cls g ;; Ok (PNone, g')
  | D_video, [w; h] =>
      match w, h with
      | PS (SInt w), PS (SInt h) => '(r, g') <- video (a_window a) (a_surface a) w h g ;; Ok (PS (SInt r), g')
      | _, _ => Ok (PS (SInt 0), g)
      end
  | D_plot, [x; y] =>
      if is_number x && is_number y then
        x <- as_int x ;; y <- as_int y ;; g' <- plot x y g ;; Ok (PNone, g')
      else Ok (PNone, g)
  | D_flip, [] => g' <- flip g ;; Ok (PNone, g')
  | D_setrgb, [r; gr; b] =>
      if is_number r && is_number gr && is_number b then
        r <- as_int r ;; gr <- as_int gr ;; b <- as_int b ;; Ok (PNone, setrgb r gr b g)
      else Ok (PNone, g)
  | D_circle, [x; y; r] =>
      if is_number y && is_number x && is_number r then
        x <- as_int x ;; y <- as_int y ;; r <- as_int r ;; g' <- circle x y r g ;; Ok (PNone, g')
      else Ok (PNone, g)
  | D_line, [x0; y0; x1; y1] =>
      match x0, y0, x1, y1 with
      | PS (SInt x0), PS (SInt y0), PS (SInt x1), PS (SInt y1) => g' <- line x0 y0 x1 y1 g ;; Ok (PNone, g')
      | _, _, _, _ => Ok (PNone, g)
      end
  | _, _ => Stuck SAssert
  end.
(** driver.cpp:339-348: the names and numbers of arguments registered *)
Definition sdl_arity : list (bytes * Z * option drawing) :=
  [(bs "cls", 0, Some D_cls); (bs "rand", 0, None); (bs "video", 2, Some D_video); (bs "plot", 2, Some D_plot);
   (bs "flip", 0, Some D_flip); (bs "setrgb", 3, Some D_setrgb); (bs "circle", 3, Some D_circle); (bs "line", 4, Some D_line);
   (bs "sleep", 1, None); (bs "keydown", 1, None)].
(** A history of calls. *)
Fixpoint drawn (l : list (answers * drawing * list pv)) (g : gfx) : res gfx :=
  match l with
  | [] => Ok g
  | (a, f, args) :: l => '(_, g') <- draw a f args g ;; drawn l g'
  end.
