(** Properties of the drawing functions of the SDL driver, C108 to C112.  The
    vocabulary is that of SdlSpec.v. *)
From Coq Require Import ZArith List Bool Lia ZifyBool.
From Verif Require Import Base BaseFacts F32 VM Sdl SdlSpec SdlFacts.
Import ListNotations.
Open Scope list_scope.
Open Scope Z_scope.

(** * C108 Drawing stays inside the picture *)
(** plot, circle and line, whatever the arguments: the result is the old picture
    with some pixels in the current colour, unless a number does not fit. *)
Theorem C108_only_paints a f args g : framed g -> In f [D_plot; D_circle; D_line] ->
  (exists name, In (name, zlen args, Some f) sdl_arity) ->
  draw a f args g = Stuck SOverflow \/ draw a f args g = Stuck SCast \/
  exists g' p, draw a f args g = Ok (PNone, g') /\ paints p g g'.
Proof.
  intros F Hf (name & Ar). apply in_arity in Ar.
  assert (Same : exists g' p, @Ok (pv * gfx) (PNone, g) = Ok (PNone, g') /\ paints p g g') by (exists g; eexists; split; [reflexivity|apply paints_none]).
  assert (Fi : forall r, fine g r -> (g' <- r ;; Ok (PNone, g')) = Stuck SOverflow \/ (g' <- r ;; Ok (PNone, g')) = Stuck SCast \/
      exists g' p, (g' <- r ;; Ok (PNone, g')) = Ok (PNone, g') /\ paints p g g').
  { intros r [->|(g' & p & -> & P)]; cbn [bind]; [left; reflexivity|right; right; eauto]. }
  destruct Hf as [<-|[<-|[<-|[]]]].
  - destruct (proj1 (proj2 (zlen_split args)) Ar) as (x & y & ->). cbn [draw]. destruct (is_number x && is_number y) eqn:N; [|right; right; exact Same].
    apply andb_true_iff in N. destruct N as [Nx Ny].
    destruct (number_reads x Nx) as [(zx & Rx)|E]; [|rewrite E; right; left; reflexivity]. destruct (reads_ok _ _ Rx) as [_ Ex]. rewrite Ex. cbn [bind].
    destruct (number_reads y Ny) as [(zy & Ry)|E]; [|rewrite E; right; left; reflexivity]. destruct (reads_ok _ _ Ry) as [_ Ey]. rewrite Ey. cbn [bind].
    apply Fi. destruct (plot_paints zx zy g F) as (g' & E & P). right. eauto.
  - destruct (proj1 (proj2 (proj2 (zlen_split args))) Ar) as (x & y & r & ->). cbn [draw]. destruct (is_number y && is_number x && is_number r) eqn:N; [|right; right; exact Same].
    apply andb_true_iff in N. destruct N as [N Nr]. apply andb_true_iff in N. destruct N as [Ny Nx].
    destruct (number_reads x Nx) as [(zx & Rx)|E]; [|rewrite E; right; left; reflexivity]. destruct (reads_ok _ _ Rx) as [_ Ex]. rewrite Ex. cbn [bind].
    destruct (number_reads y Ny) as [(zy & Ry)|E]; [|rewrite E; right; left; reflexivity]. destruct (reads_ok _ _ Ry) as [_ Ey]. rewrite Ey. cbn [bind].
    destruct (number_reads r Nr) as [(zr & Rr)|E]; [|rewrite E; right; left; reflexivity]. destruct (reads_ok _ _ Rr) as [_ Er]. rewrite Er. cbn [bind].
    apply Fi, circle_fine. exact F.
  - destruct (proj2 (proj2 (proj2 (zlen_split args))) Ar) as (x0 & y0 & x1 & y1 & ->). cbn [draw].
    destruct x0 as [|[x0| | | |]|]; try (right; right; exact Same). destruct y0 as [|[y0| | | |]|]; try (right; right; exact Same).
    destruct x1 as [|[x1| | | |]|]; try (right; right; exact Same). destruct y1 as [|[y1| | | |]|]; try (right; right; exact Same).
    apply Fi, line_fine. exact F.
Qed.

(** Any history of sensible calls from the start of the program. *)
Lemma drawn_fine l : forall g, ready g -> Forall sensible l ->
  (exists g', drawn l g = Ok g' /\ ready g') \/ drawn l g = Stuck SOverflow \/ drawn l g = Stuck SCast.
Proof.
  induction l as [|[[a f] args] l IH]; intros g R H; [left; exists g; split; [reflexivity|exact R]|]. pose proof (Forall_inv H) as Sn. pose proof (Forall_inv_tail H) as H'. unfold sensible in Sn. destruct Sn as [(name & Ar) V]. cbn [drawn].
  assert (Next : forall r g', ready g' -> draw a f args g = Ok (r, g') ->
      (exists g2, ('(_, g1) <- draw a f args g ;; drawn l g1) = Ok g2 /\ ready g2) \/
      ('(_, g1) <- draw a f args g ;; drawn l g1) = Stuck SOverflow \/ ('(_, g1) <- draw a f args g ;; drawn l g1) = Stuck SCast).
  { intros r g' R' E. rewrite E. cbn [bind]. apply IH; assumption. }
  assert (Paint : In f [D_plot; D_circle; D_line] ->
      (exists g2, ('(_, g1) <- draw a f args g ;; drawn l g1) = Ok g2 /\ ready g2) \/
      ('(_, g1) <- draw a f args g ;; drawn l g1) = Stuck SOverflow \/ ('(_, g1) <- draw a f args g ;; drawn l g1) = Stuck SCast).
  { intros I. destruct (C108_only_paints a f args g (r_framed _ R) I ltac:(eauto)) as [E|[E|(g' & p & E & P)]].
    - rewrite E. right. left. reflexivity.
    - rewrite E. right. right. reflexivity.
    - eapply Next; [exact (ready_paints _ _ _ R P)|exact E]. }
  pose proof (in_arity _ _ _ Ar) as N. destruct f.
  - apply (proj1 (zlen_split args)) in N. subst args. destruct (cls_ok g (r_framed _ R)) as (g' & E & A1 & A2 & A3 & A4 & A5 & A6 & _).
    apply (Next PNone g'); [|cbn [draw]; rewrite E; reflexivity]. destruct R as [[F1 [F2 [F3 F4]]] R2 R3 R4].
    constructor; [unfold framed|..]; rewrite ?A2, ?A4, ?A5, ?A6; auto.
  - destruct (proj1 (proj2 (zlen_split args)) N) as (w & h & ->). destruct w as [|[w| | | |]|]; try (eapply Next; [exact R|reflexivity]).
    destruct h as [|[h| | | |]|]; try (eapply Next; [exact R|reflexivity]).
    destruct (V w h eq_refl eq_refl) as (B1 & B2 & B3 & B4 & B5).
    destruct (video_ok (a_window a) (a_surface a) w h g) as (g' & E & F' & A1 & A2 & A3 & A4 & A5 & _); [unfold i32_max in *; lia..|].
    eapply Next; [|cbn [draw]; rewrite E; reflexivity]. rewrite B4 in A2. constructor; [exact F'|lia|rewrite A4; exact B2|]. intros s Es. rewrite A4, A5. apply B5. congruence.
  - apply Paint. now left.
  - apply (proj1 (zlen_split args)) in N. subst args. destruct (x_screen g) as [s|] eqn:Es.
    + destruct (flip_ok g s (r_framed _ R) Es (r_screen _ R s Es) (r_wide _ R) (r_width _ R)) as (l' & E & Z1 & _).
      eapply Next; [|cbn [draw]; rewrite E; reflexivity]. destruct R as [R1 R2 R3 R4].
      constructor; cbn [x_width x_height x_screen]; [exact R1|exact R2|exact R3|]. intros k Ek. inversion Ek; subst. rewrite Z1. auto.
    + eapply Next; [exact R|]. cbn [draw]. unfold flip. rewrite Es. reflexivity.
  - destruct (proj1 (proj2 (proj2 (zlen_split args))) N) as (x & y & z & ->). cbn [draw]. destruct (is_number x && is_number y && is_number z) eqn:Q.
    2:{ cbn [bind]. apply IH; assumption. }
    apply andb_true_iff in Q. destruct Q as [Q Nz]. apply andb_true_iff in Q. destruct Q as [Nx Ny].
    destruct (number_reads x Nx) as [(zx & Rx)|E]; [|rewrite E; right; right; reflexivity]. destruct (reads_ok _ _ Rx) as [_ Ex]. rewrite Ex. cbn [bind].
    destruct (number_reads y Ny) as [(zy & Ry)|E]; [|rewrite E; right; right; reflexivity]. destruct (reads_ok _ _ Ry) as [_ Ey]. rewrite Ey. cbn [bind].
    destruct (number_reads z Nz) as [(zz & Rz)|E]; [|rewrite E; right; right; reflexivity]. destruct (reads_ok _ _ Rz) as [_ Ez]. rewrite Ez. cbn [bind].
    apply IH; [|exact H']. destruct R as [R1 R2 R3 R4]. constructor; assumption.
  - apply Paint. right. now left.
  - apply Paint. right. right. now left.
Qed.
Theorem C108_drawing_stays_inside l : Forall sensible l ->
  (exists g, drawn l gfx_start = Ok g /\ framed g) \/ drawn l gfx_start = Stuck SOverflow \/ drawn l gfx_start = Stuck SCast.
Proof.
  intros H. destruct (drawn_fine l gfx_start) as [(g & E & R)|E]; [|exact H|left; exists g; split; [exact E|apply R]|right; exact E].
  constructor; [apply framed_start|discriminate..].
Qed.

(** A dot is one pixel, or none if it is outside or there is no surface. *)
Theorem C108_plot a vx vy x y g : framed g -> reads vx x -> reads vy y ->
  exists g', draw a D_plot [vx; vy] g = Ok (PNone, g') /\
    paints (fun i j => match x_screen g with Some _ => (i =? x) && (j =? y) | None => false end) g g'.
Proof.
  intros F Rx Ry. destruct (reads_ok _ _ Rx) as [Nx Ex]. destruct (reads_ok _ _ Ry) as [Ny Ey]. destruct (plot_paints x y g F) as (g' & E & P).
  exists g'. cbn [draw]. rewrite Nx, Ny, Ex, Ey. cbn [andb bind]. rewrite E. split; [reflexivity|]. eapply paints_ext; [|exact P].
  intros i j. unfold shows. destruct (x_screen g); reflexivity.
Qed.
(** Arguments that are not numbers draw nothing. *)
Theorem C108_not_numbers a f args g : In f [D_plot; D_circle; D_line; D_setrgb] -> (exists name, In (name, zlen args, Some f) sdl_arity) ->
  existsb (fun v => negb (is_number v)) args = true -> draw a f args g = Ok (PNone, g).
Proof.
  intros Hf (name & Ar) Ex. apply in_arity in Ar. destruct (zlen_split args) as (_ & L2 & L3 & L4). destruct Hf as [<-|[<-|[<-|[<-|[]]]]].
  - destruct (L2 Ar) as (x & y & ->). cbn [existsb draw] in *. destruct (is_number x), (is_number y); try discriminate Ex; reflexivity.
  - destruct (L3 Ar) as (x & y & z & ->). cbn [existsb draw] in *. destruct (is_number x), (is_number y), (is_number z); try discriminate Ex; reflexivity.
  - destruct (L4 Ar) as (x & y & z & w & ->). cbn [existsb draw] in *.
    destruct x as [|[x| | | |]|]; try reflexivity. destruct y as [|[y| | | |]|]; try reflexivity. destruct z as [|[z| | | |]|]; try reflexivity.
    destruct w as [|[w| | | |]|]; try reflexivity. discriminate Ex.
  - destruct (L3 Ar) as (x & y & z & ->). cbn [existsb draw] in *. destruct (is_number x), (is_number y), (is_number z); try discriminate Ex; reflexivity.
Qed.
(** A picture with a row of another size than asked for would not do: with negative
    sizes the memory cleared is not the memory allocated. *)
Theorem C108_negative_size a w h g : w * h < 0 -> i32_min <= w * h -> draw a D_video [PS (SInt w); PS (SInt h)] g = Stuck SOob.
Proof. intros N M. cbn [draw]. unfold video. rewrite chk_ok by (unfold i32_max; lia). cbn [bind]. replace (w * h <? 0) with true by lia. reflexivity. Qed.

(** * C109 Circles *)
(** Every pixel within the radius, and none a whole pixel farther.  Distances are
    measured as [far2] says. *)
Theorem C109_circle a vx vy vr x y r g l : framed g -> x_screen g = Some l -> reads vx x -> reads vy y -> reads vr r ->
  1 <= r <= 536870912 -> modest 536870912 x -> modest 536870912 y ->
  exists g' p, draw a D_circle [vx; vy; vr] g = Ok (PNone, g') /\ paints p g g' /\
    (forall i j, far2 x y i j <= r * r -> p i j = true) /\
    (forall i j, (r + 1) * (r + 1) <= far2 x y i j -> p i j = false).
Proof.
  intros F Es Rx Ry Rr Hr Hx Hy. destruct (reads_ok _ _ Rx) as [Nx Ex]. destruct (reads_ok _ _ Ry) as [Ny Ey]. destruct (reads_ok _ _ Rr) as [Nr Er].
  destruct (circle_paints x y r g F Hr Hx Hy) as (g' & p & E & P & C1 & C2). exists g', p. cbn [draw]. rewrite Nx, Ny, Nr, Ex, Ey, Er. cbn [andb bind]. rewrite E.
  split; [reflexivity|]. split; [exact P|]. split.
  - apply C2. unfold shows. now rewrite Es.
  - intros i j H. destruct (p i j) eqn:T; [|reflexivity]. destruct (C1 i j T). lia.
Qed.
(** Finding: circles are lopsided.  The leftmost pixel [r] columns from the centre
    is painted, its mirror image is not. *)
Theorem C109_lopsided a vx vy vr x y r g l : framed g -> x_screen g = Some l -> reads vx x -> reads vy y -> reads vr r ->
  1 <= r <= 536870912 -> modest 536870912 x -> modest 536870912 y ->
  exists g', draw a D_circle [vx; vy; vr] g = Ok (PNone, g') /\
    (inside g (x - r) y -> pixel g' (x - r) y = Some (x_rgb g)) /\
    (inside g (x + r) y -> pixel g' (x + r) y = pixel g (x + r) y).
Proof.
  intros F Es Rx Ry Rr Hr Hx Hy. destruct (C109_circle a vx vy vr x y r g l F Es Rx Ry Rr Hr Hx Hy) as (g' & p & E & P & C1 & C2).
  exists g'. split; [exact E|]. destruct P as (_ & _ & _ & _ & _ & _ & P). split; intros I; rewrite (P _ _ I).
  - rewrite C1; [reflexivity|]. unfold far2. replace (x - r <? x) with true by lia. cbv zeta. nia.
  - rewrite C2; [reflexivity|]. unfold far2. replace (x + r <? x) with false by lia. cbv zeta. nia.
Qed.
(** Finding: a circle of radius 0 is four pixels above and below its centre, not
    the centre; one with a negative radius is nothing. *)
Theorem C109_radius_zero a vx vy vr x y g l : framed g -> x_screen g = Some l -> reads vx x -> reads vy y -> reads vr 0 ->
  modest 536870912 x -> modest 536870912 y ->
  exists g', draw a D_circle [vx; vy; vr] g = Ok (PNone, g') /\
    paints (fun i j => ((i =? x - 1) || (i =? x)) && ((j =? y - 1) || (j =? y + 1))) g g'.
Proof.
  intros F Es Rx Ry Rr Hx Hy. destruct (reads_ok _ _ Rx) as [Nx Ex]. destruct (reads_ok _ _ Ry) as [Ny Ey]. destruct (reads_ok _ _ Rr) as [Nr Er].
  destruct (circle_dot x y g F Hx Hy) as (g' & E & P). exists g'. cbn [draw]. rewrite Nx, Ny, Nr, Ex, Ey, Er. cbn [andb bind]. rewrite E.
  split; [reflexivity|]. eapply paints_ext; [|exact P]. intros i j. cbv beta. unfold shows. rewrite Es. lia.
Qed.
Theorem C109_negative_radius a vx vy vr x y r g : framed g -> reads vx x -> reads vy y -> reads vr r -> - 536870912 <= r < 0 ->
  modest 536870912 x -> modest 536870912 y ->
  exists g', draw a D_circle [vx; vy; vr] g = Ok (PNone, g') /\ paints (fun _ _ => false) g g'.
Proof.
  intros F Rx Ry Rr Hr Hx Hy. destruct (reads_ok _ _ Rx) as [Nx Ex]. destruct (reads_ok _ _ Ry) as [Ny Ey]. destruct (reads_ok _ _ Rr) as [Nr Er].
  destruct (circle_nothing x y r g F) as (g' & E & P); [unfold modest; lia|lia|exact Hx|exact Hy|].
  exists g'. cbn [draw]. rewrite Nx, Ny, Nr, Ex, Ey, Er. cbn [andb bind]. rewrite E. split; [reflexivity|exact P].
Qed.

(** * C110 Lines *)
(** A line has one pixel in each column (or row, if it is steeper) from its start
    up to but not including its end, and each is less than two pixels off and
    between the two ends. *)
Theorem C110_line a x0 y0 x1 y1 g l : framed g -> x_screen g = Some l ->
  modest 16383 x0 -> modest 16383 y0 -> modest 16383 x1 -> modest 16383 y1 ->
  let dx := x1 - x0 in let dy := y1 - y0 in
  exists g' p, draw a D_line [PS (SInt x0); PS (SInt y0); PS (SInt x1); PS (SInt y1)] g = Ok (PNone, g') /\ paints p g g' /\
    (Z.abs dy <= Z.abs dx -> exists m, forall i j, p i j = true <-> exists k, 0 <= k < Z.abs dx /\ i = x0 + Z.sgn dx * k /\ j = y0 + m k /\
       Z.abs (m k * Z.abs dx - k * dy) < 2 * Z.abs dx /\ (0 <= m k <= dy \/ dy <= m k <= 0)) /\
    (Z.abs dx < Z.abs dy -> exists m, forall i j, p i j = true <-> exists k, 0 <= k < Z.abs dy /\ i = x0 + m k /\ j = y0 + Z.sgn dy * k /\
       Z.abs (m k * Z.abs dy - k * dx) < 2 * Z.abs dy /\ (0 <= m k <= dx \/ dx <= m k <= 0)).
Proof.
  intros F Es A B C D dx dy. destruct (line_paints x0 y0 x1 y1 g F A B C D) as (g' & p & m & E & P & M0 & M & Q). fold dx dy in M, Q.
  exists g', p. cbn [draw]. rewrite E. split; [reflexivity|]. split; [exact P|]. unfold shows in Q. rewrite Es in Q.
  split; intros H; exists m; intros i j; rewrite Q.
  - replace (Z.abs dx <? Z.abs dy) with false in * by lia. split.
    + intros (_ & k & K & I & J). exists k. destruct (M k K). auto.
    + intros (k & K & I & J & _). split; [reflexivity|]. exists k. auto.
  - replace (Z.abs dx <? Z.abs dy) with true in * by lia. split.
    + intros (_ & k & K & I & J). exists k. destruct (M k K). auto.
    + intros (k & K & I & J & _). split; [reflexivity|]. exists k. auto.
Qed.
(** No pixel is missing on the way. *)
Theorem C110_every_column a x0 y0 x1 y1 g l : framed g -> x_screen g = Some l ->
  modest 16383 x0 -> modest 16383 y0 -> modest 16383 x1 -> modest 16383 y1 ->
  exists g' p, draw a D_line [PS (SInt x0); PS (SInt y0); PS (SInt x1); PS (SInt y1)] g = Ok (PNone, g') /\ paints p g g' /\
    (x0 <> x1 \/ y0 <> y1 -> p x0 y0 = true) /\
    (Z.abs (y1 - y0) <= Z.abs (x1 - x0) -> forall i, x0 <= i < x1 \/ x1 < i <= x0 -> exists j, p i j = true /\ forall j', p i j' = true -> j' = j) /\
    (Z.abs (x1 - x0) < Z.abs (y1 - y0) -> forall j, y0 <= j < y1 \/ y1 < j <= y0 -> exists i, p i j = true /\ forall i', p i' j = true -> i' = i).
Proof.
  intros F Es A B C D. destruct (line_paints x0 y0 x1 y1 g F A B C D) as (g' & p & m & E & P & M0 & M & Q). cbv zeta in M, Q.
  exists g', p. cbn [draw]. rewrite E. split; [reflexivity|]. split; [exact P|]. unfold shows in Q. rewrite Es in Q. split; [|split].
  - intros N. apply Q. split; [reflexivity|]. exists 0.
    rewrite M0. destruct (Z.abs (x1 - x0) <? Z.abs (y1 - y0)) eqn:S; lia.
  - intros H i I. replace (Z.abs (x1 - x0) <? Z.abs (y1 - y0)) with false in * by lia. exists (y0 + m (Z.abs (i - x0))). split.
    + apply Q. split; [reflexivity|]. exists (Z.abs (i - x0)). split; [lia|]. split; [|reflexivity]. destruct I; [rewrite Z.sgn_pos by lia|rewrite Z.sgn_neg by lia]; lia.
    + intros j' T. apply Q in T. destruct T as (_ & k & K & I2 & ->). f_equal. f_equal. destruct I; [rewrite Z.sgn_pos in I2 by lia|rewrite Z.sgn_neg in I2 by lia]; lia.
  - intros H j I. replace (Z.abs (x1 - x0) <? Z.abs (y1 - y0)) with true in * by lia. exists (x0 + m (Z.abs (j - y0))). split.
    + apply Q. split; [reflexivity|]. exists (Z.abs (j - y0)). split; [lia|]. split; [reflexivity|]. destruct I; [rewrite Z.sgn_pos by lia|rewrite Z.sgn_neg by lia]; lia.
    + intros i' T. apply Q in T. destruct T as (_ & k & K & -> & I2). f_equal. f_equal. destruct I; [rewrite Z.sgn_pos in I2 by lia|rewrite Z.sgn_neg in I2 by lia]; lia.
Qed.

(** Finding: the end of a line is not drawn, and a line from a point to itself is
    nothing. *)
Theorem C110_end_missing a x0 y0 x1 y1 g l : framed g -> x_screen g = Some l ->
  modest 16383 x0 -> modest 16383 y0 -> modest 16383 x1 -> modest 16383 y1 ->
  exists g', draw a D_line [PS (SInt x0); PS (SInt y0); PS (SInt x1); PS (SInt y1)] g = Ok (PNone, g') /\
    (inside g x1 y1 -> pixel g' x1 y1 = pixel g x1 y1) /\
    (x0 = x1 -> y0 = y1 -> forall i j, inside g i j -> pixel g' i j = pixel g i j).
Proof.
  intros F Es A B C D. destruct (line_paints x0 y0 x1 y1 g F A B C D) as (g' & p & m & E & P & M0 & M & Q). cbv zeta in M, Q.
  exists g'. cbn [draw]. rewrite E. split; [reflexivity|]. destruct P as (_ & _ & _ & _ & _ & _ & P). split.
  - intros I. rewrite (P _ _ I). destruct (p x1 y1) eqn:T; [exfalso|reflexivity]. apply Q in T. destruct T as (_ & k & K & I1 & I2).
    destruct (Z.abs (x1 - x0) <? Z.abs (y1 - y0)); [destruct (Z.sgn_spec (y1 - y0)) as [[? S]|[[? S]|[? S]]]|destruct (Z.sgn_spec (x1 - x0)) as [[? S]|[[? S]|[? S]]]];
      rewrite S in *; lia.
  - intros -> -> i j I. rewrite (P _ _ I). destruct (p i j) eqn:T; [exfalso|reflexivity]. apply Q in T. destruct T as (_ & k & K & _).
    destruct (_ <? _) in K; lia.
Qed.
(** Finding: lines longer than 32767 both ways cannot be drawn. *)
Theorem C110_too_long a x0 y0 x1 y1 g : - i32_max <= x1 - x0 <= i32_max -> - i32_max <= y1 - y0 <= i32_max ->
  32768 < Z.abs (x1 - x0) -> 32768 < Z.abs (y1 - y0) ->
  draw a D_line [PS (SInt x0); PS (SInt y0); PS (SInt x1); PS (SInt y1)] g = Stuck SOverflow.
Proof.
  intros A B C D. cbn [draw]. unfold line. rewrite !chk_ok by (unfold i32_min, i32_max in *; lia). cbn [bind].
  assert (Ax : forall z, - i32_max <= z <= i32_max -> abs32 z = Ok (Z.abs z)).
  { intros z H. unfold abs32. destruct (z <? 0) eqn:N; [rewrite chk_ok by (unfold i32_min, i32_max in *; lia)|]; f_equal; lia. }
  rewrite !Ax by assumption. cbn [bind]. cbv zeta.
  destruct (Z.abs (x1 - x0) <? Z.abs (y1 - y0)); rewrite Ax by assumption; cbn [bind].
  - replace (Z.abs (y1 - y0) =? 0) with false by lia. unfold chk32, in_i32, i32_min, i32_max in *. replace (_ && _) with false by lia. reflexivity.
  - replace (Z.abs (x1 - x0) =? 0) with false by lia. unfold chk32, in_i32, i32_min, i32_max in *. replace (_ && _) with false by lia. reflexivity.
Qed.

(** * C111 Showing the picture *)
(** On a square picture, each pixel of the surface is the pixel of the picture a
    third as far from the corner.  Nothing else changes. *)
Theorem C111_flip a g l : framed g -> x_screen g = Some l -> zlen l = 9 * (x_width g * x_height g) -> 9 * x_width g <= i32_max ->
  x_height g = x_width g ->
  exists g', draw a D_flip [] g = Ok (PNone, g') /\
    (forall X Y, 0 <= X < 3 * x_width g -> 0 <= Y < 3 * x_height g -> on_screen g' X Y = pixel g (X / 3) (Y / 3)) /\
    x_video g' = x_video g /\ x_width g' = x_width g /\ x_height g' = x_height g /\ x_rgb g' = x_rgb g /\ x_window g' = x_window g /\
    exists l', x_screen g' = Some l' /\ zlen l' = zlen l.
Proof.
  intros F Es L M H. destruct (flip_ok g l F Es L ltac:(lia) M) as (l' & E & Z1 & N). eexists. cbn [draw]. rewrite E. split; [reflexivity|].
  unfold on_screen. cbn [x_screen x_width x_height x_rgb x_window x_video]. split; [|repeat split; eauto].
  intros X Y HX HY. rewrite N by assumption. replace (X <? 3 * x_height g) with true by lia. reflexivity.
Qed.
(** Finding: on a picture wider than high, only as many columns are shown as there
    are rows. *)
Theorem C111_wide a g l : framed g -> x_screen g = Some l -> zlen l = 9 * (x_width g * x_height g) -> 9 * x_width g <= i32_max ->
  x_height g < x_width g ->
  exists g', draw a D_flip [] g = Ok (PNone, g') /\
    forall X Y, 0 <= X < 3 * x_width g -> 0 <= Y < 3 * x_height g ->
      on_screen g' X Y = if X <? 3 * x_height g then pixel g (X / 3) (Y / 3) else on_screen g X Y.
Proof.
  intros F Es L M H. destruct (flip_ok g l F Es L ltac:(lia) M) as (l' & E & Z1 & N). eexists. cbn [draw]. rewrite E. split; [reflexivity|].
  unfold on_screen. cbn [x_screen x_width]. rewrite Es. exact N.
Qed.
(** Finding: on a picture higher than wide, it reads past the end of the picture. *)
Theorem C111_tall a g l : framed g -> x_screen g = Some l -> x_width g < x_height g -> draw a D_flip [] g = Stuck SOob.
Proof. intros F Es H. cbn [draw]. rewrite (flip_tall g l F Es H). reflexivity. Qed.

(** * C112 Pictures and colours *)
(** video makes a black picture of the size asked for.  Finding: it returns 1 if
    SDL fails and 0 if not. *)
Theorem C112_video a w h g : 0 <= w <= i32_max -> 0 <= h <= i32_max -> w * h <= i32_max ->
  exists g', draw a D_video [PS (SInt w); PS (SInt h)] g =
      Ok (PS (SInt (if a_window a && match a_surface a with Some _ => true | None => false end then 0 else 1)), g') /\
    framed g' /\ x_width g' = w /\ x_height g' = h /\ x_rgb g' = x_rgb g /\
    (a_window a = true -> x_screen g' = a_surface a) /\
    forall x y, inside g' x y -> pixel g' x y = Some 0.
Proof.
  intros W H P. destruct (video_ok (a_window a) (a_surface a) w h g) as (g' & E & F & A1 & A2 & A3 & A4 & A5 & A6); [lia..|].
  exists g'. cbn [draw]. rewrite E. cbn [bind]. repeat (split; [first [reflexivity|assumption]|]). split; [|exact A6]. intros T. rewrite T in A2. exact A2.
Qed.
Theorem C112_cls a g : framed g -> exists g', draw a D_cls [] g = Ok (PNone, g') /\ framed g' /\ x_width g' = x_width g /\ x_height g' = x_height g /\ x_screen g' = x_screen g /\ x_rgb g' = x_rgb g /\ forall x y, inside g x y -> pixel g' x y = Some 0.
Proof.
  intros F. destruct (cls_ok g F) as (g' & E & A1 & A2 & A3 & A4 & A5 & A6 & A7). exists g'. cbn [draw]. rewrite E. split; [reflexivity|].
  split; [|auto 10]. destruct F as (F1 & F2 & F3 & F4). unfold framed. rewrite A4, A5, A6. auto.
Qed.
(** The low eight bits of each number, red first.  Only later drawing uses them. *)
Theorem C112_setrgb a vr vg vb r gr b g : reads vr r -> reads vg gr -> reads vb b ->
  exists g', draw a D_setrgb [vr; vg; vb] g = Ok (PNone, g') /\ x_rgb g' = 65536 * (r mod 256) + 256 * (gr mod 256) + b mod 256 /\
    x_video g' = x_video g /\ x_screen g' = x_screen g /\ x_width g' = x_width g /\ x_height g' = x_height g /\ x_window g' = x_window g.
Proof.
  intros Rr Rg Rb. destruct (reads_ok _ _ Rr) as [Nr Er]. destruct (reads_ok _ _ Rg) as [Ng Eg]. destruct (reads_ok _ _ Rb) as [Nb Eb].
  eexists. cbn [draw]. rewrite Nr, Ng, Nb, Er, Eg, Eb. cbn [andb bind]. split; [reflexivity|]. cbn [setrgb x_rgb x_video x_screen x_width x_height x_window].
  split; [|auto]. change 255 with (Z.ones 8). rewrite !Z.land_ones by lia. change (2 ^ 8) with 256.
  pose proof (Z.mod_pos_bound r 256 ltac:(lia)). pose proof (Z.mod_pos_bound gr 256 ltac:(lia)). pose proof (Z.mod_pos_bound b 256 ltac:(lia)).
  set (x := r mod 256) in *. set (y := gr mod 256) in *. set (z := b mod 256) in *. clearbody x y z.
  assert (Or : forall p q n, 0 <= n -> 0 <= q < 2 ^ n -> Z.lor (Z.shiftl p n) q = p * 2 ^ n + q).
  { intros p q n Hn Hq. assert (L : Z.land (Z.shiftl p n) q = 0).
    { apply Z.bits_inj'. intros k Hk. rewrite Z.land_spec, Z.bits_0. destruct (Z_lt_le_dec k n) as [Lo|Hi].
      - rewrite Z.shiftl_spec_low by lia. reflexivity.
      - replace (Z.testbit q k) with false; [apply andb_false_r|]. symmetry. destruct (Z.eq_dec q 0) as [->|Nq]; [apply Z.bits_0|].
        apply Z.bits_above_log2; [lia|]. apply Z.log2_lt_pow2; [lia|]. apply Z.lt_le_trans with (2 ^ n); [lia|]. apply Z.pow_le_mono_r; lia. }
    rewrite <- Z.lxor_lor, <- Z.add_nocarry_lxor by exact L. rewrite Z.shiftl_mul_pow2 by lia. reflexivity. }
  replace (Z.lor (Z.shiftl x 16) (Z.shiftl y 8)) with (Z.shiftl (x * 256 + y) 8).
  - rewrite Or by (change (2 ^ 8) with 256; lia). change (2 ^ 8) with 256. lia.
  - change (x * 256 + y) with (x * 2 ^ 8 + y). rewrite <- (Or x y 8) by (change (2 ^ 8) with 256; lia). rewrite Z.shiftl_lor, Z.shiftl_shiftl by lia. reflexivity.
Qed.

(** Finding: if SDL makes no window the second time, the old surface stays and the
    next flip writes past its end. *)
Definition two_windows : list (answers * drawing * list pv) :=
  [(Answers true (Some (zrepeat 0 9)), D_video, [PS (SInt 1); PS (SInt 1)]); (Answers false None, D_video, [PS (SInt 2); PS (SInt 2)]);
   (Answers true None, D_flip, [])].
Theorem C112_old_surface : drawn (firstn 2 two_windows) gfx_start <> Stuck SOob /\ drawn two_windows gfx_start = Stuck SOob.
Proof. split; [vm_compute; discriminate|vm_compute; reflexivity]. Qed.

(** ** A case for the theorems above: a picture of 4 by 4 pixels with a circle, a
    line and a dot, and what is on the surface after flip *)
Definition an_answer : answers := Answers true (Some (zrepeat 7 144)).
Definition some_calls : list (answers * drawing * list pv) :=
  [(an_answer, D_video, [PS (SInt 4); PS (SInt 4)]);
   (an_answer, D_setrgb, [PS (SInt 0); PS (SInt 1); PS (SFlt (f_of_int 258))]);
   (an_answer, D_circle, [PS (SInt 2); PS (SInt 1); PS (SInt 1)]);
   (an_answer, D_setrgb, [PS (SInt (-1)); PS (SInt 0); PS (SInt 0)]);
   (an_answer, D_line, [PS (SInt (-2)); PS (SInt 0); PS (SInt 5); PS (SInt 5)]);
   (an_answer, D_plot, [PS (SInt 3); PS (SInt 9)]);
   (an_answer, D_plot, [PS (SInt 0); PS (SInt 3)]);
   (an_answer, D_flip, [])].
Example C108_ex : Forall sensible some_calls /\
  exists g, drawn some_calls gfx_start = Ok g /\ framed g /\
    x_video g = [0; 0; 0; 0;  16711680; 258; 258; 0;  0; 16711680; 16711680; 0;  16711680; 0; 0; 16711680] /\
    map (fun X => on_screen g X 4) [0; 2; 3; 8; 9; 11] = map Some [16711680; 16711680; 258; 258; 0; 0].
Proof.
  split.
  - unfold some_calls. assert (A : forall a f args name, In (name, zlen args, Some f) sdl_arity -> f <> D_video -> sensible (a, f, args)).
    { intros a f args name I N. split; [eauto|]. intros w h E. contradiction. }
    repeat (apply Forall_cons; [|]); try apply Forall_nil; try (eapply A; [vm_compute; tauto|discriminate]).
    split; [eexists; vm_compute; tauto|]. intros w h _ E2. inversion E2; subst. unfold i32_max.
    repeat split; try lia. intros l E. inversion E; subst. reflexivity.
  - eexists. split; [vm_compute; reflexivity|]. split; [|split; vm_compute; reflexivity]. unfold framed, i32_max. cbn [x_width x_height x_video]. repeat split; lia.
Qed.

Print Assumptions C108_only_paints.
Print Assumptions C108_drawing_stays_inside.
Print Assumptions C108_plot.
Print Assumptions C108_not_numbers.
Print Assumptions C108_negative_size.
Print Assumptions C109_circle.
Print Assumptions C109_lopsided.
Print Assumptions C109_radius_zero.
Print Assumptions C109_negative_radius.
Print Assumptions C110_line.
Print Assumptions C110_every_column.
Print Assumptions C110_end_missing.
Print Assumptions C110_too_long.
Print Assumptions C111_flip.
Print Assumptions C111_wide.
Print Assumptions C111_tall.
Print Assumptions C112_video.
Print Assumptions C112_cls.
Print Assumptions C112_setrgb.
Print Assumptions C112_old_surface.
