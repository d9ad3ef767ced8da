(** Proofs about the drawing functions of the SDL driver. *)
From Coq Require Import ZArith List Bool Lia ZifyBool.
From Verif Require Import Base BaseFacts F32 VM Sdl SdlSpec.
Import ListNotations.
Open Scope Z_scope.

(** ** Arrays *)
Lemma store_ok l i c : 0 <= i < zlen l -> store l i c = Ok (zupd l i c).
Proof. intros H. unfold store. destruct (znth_in l i H) as (v & ->). reflexivity. Qed.
Lemma fill_ok c n : forall i l, 0 <= i -> i + Z.of_nat n <= zlen l ->
  exists l', fill n i c l = Ok l' /\ zlen l' = zlen l /\
    forall k, znth l' k = if (i <=? k) && (k <? i + Z.of_nat n) then Some c else znth l k.
Proof.
  induction n as [|n IH]; intros i l L U; cbn [fill].
  - exists l. split; [reflexivity|]. split; [reflexivity|]. intros k. replace (_ && _) with false by lia. reflexivity.
  - rewrite store_ok by lia. cbn [bind]. destruct (IH (i + 1) (zupd l i c)) as (l' & E & Z1 & N); [lia|rewrite zlen_zupd; lia|].
    exists l'. rewrite zlen_zupd in Z1. split; [exact E|]. split; [exact Z1|]. intros k. rewrite N.
    destruct ((i + 1 <=? k) && (k <? i + 1 + Z.of_nat n)) eqn:A; [replace (_ && _) with true by lia; reflexivity|].
    destruct (Z.eq_dec k i) as [->|D].
    + rewrite znth_zupd_same by lia. replace (_ && _) with true by lia. reflexivity.
    + rewrite znth_zupd_other by lia. replace (_ && _) with false by lia. reflexivity.
Qed.

(** ** Painting *)
Lemma paints_none g : paints (fun _ _ => false) g g.
Proof. repeat split. Qed.
Lemma paints_trans f h a b c : paints f a b -> paints h b c -> paints (fun x y => h x y || f x y) a c.
Proof.
  intros (A1 & A2 & A3 & A4 & A5 & A6 & A7) (B1 & B2 & B3 & B4 & B5 & B6 & B7). repeat split; try congruence.
  intros x y I. assert (J : inside b x y) by (unfold inside in *; rewrite A4, A5; exact I). rewrite (B7 x y J), (A7 x y I), A3.
  destruct (h x y); [reflexivity|]. destruct (f x y); reflexivity.
Qed.
Lemma paints_ext f h a b : (forall x y, f x y = h x y) -> paints f a b -> paints h a b.
Proof. intros E (A1 & A2 & A3 & A4 & A5 & A6 & A7). repeat split; auto. intros x y I. rewrite <- E. auto. Qed.
Lemma paints_framed f a b : paints f a b -> framed a -> framed b.
Proof. intros (A1 & A2 & A3 & A4 & A5 & A6 & A7) (F1 & F2 & F3 & F4). unfold framed. rewrite A4, A5, A6. auto. Qed.

Definition shows (g : gfx) : bool := match x_screen g with Some _ => true | None => false end.
Lemma paints_shows f a b : paints f a b -> shows b = shows a.
Proof. intros (_ & E & _). unfold shows. now rewrite E. Qed.
Lemma row_bound w h x y : 0 <= x < w -> 0 <= y < h -> 0 <= y * w /\ y * w + w <= w * h.
Proof. intros. nia. Qed.
Lemma same_place w x y x' y' : 0 <= x < w -> 0 <= x' < w -> y * w + x = y' * w + x' -> x = x' /\ y = y'.
Proof. intros A B E. assert (y = y') by nia. subst. lia. Qed.
Lemma small_u32 z : 0 <= z <= i32_max -> to_u32 z = z.
Proof. unfold to_u32, i32_max. intros H. apply Z.mod_small. lia. Qed.
Lemma small_i32 z : 0 <= z <= i32_max -> to_i32 z = z.
Proof. unfold to_i32, i32_max. intros H. rewrite Z.mod_small by lia. replace (z <? 2147483648) with true by lia. reflexivity. Qed.

Lemma plot_paints x y g : framed g ->
  exists g', plot x y g = Ok g' /\ paints (fun a b => shows g && ((a =? x) && (b =? y))) g g'.
Proof.
  intros (F1 & F2 & F3 & F4). unfold plot, shows. destruct (x_screen g) as [l|] eqn:S; [|exists g; split; [reflexivity|apply paints_none]].
  rewrite !small_i32 by assumption.
  destruct ((0 <=? x) && (x <? x_width g)) eqn:X.
  2:{ exists g. split; [reflexivity|]. repeat split. intros a b [I1 I2]. replace (_ && _) with false by lia. reflexivity. }
  destruct ((0 <=? y) && (y <? x_height g)) eqn:Y.
  2:{ exists g. split; [reflexivity|]. repeat split. intros a b [I1 I2]. replace (_ && _) with false by lia. reflexivity. }
  destruct (row_bound (x_width g) (x_height g) x y) as [R1 R2]; [lia..|].
  rewrite small_u32 by lia. rewrite store_ok by lia. cbn [bind]. eexists. split; [reflexivity|].
  unfold paints, with_video, pixel. cbn [x_window x_screen x_rgb x_width x_height x_video]. rewrite zlen_zupd. repeat split.
  intros a b [I1 I2]. cbn [andb]. destruct ((a =? x) && (b =? y)) eqn:E.
  - replace a with x by lia. replace b with y by lia. apply znth_zupd_same. lia.
  - apply znth_zupd_other. intros Q. destruct (same_place (x_width g) x y a b) as [-> ->]; lia.
Qed.
Lemma span_paints x0 x1 y0 g : framed g ->
  exists g', span x0 x1 y0 g = Ok g' /\ paints (fun a b => shows g && ((x0 <=? a) && (a <? x1) && (b =? y0))) g g'.
Proof.
  intros (F1 & F2 & F3 & F4). unfold span, shows. destruct (x_screen g) as [l|] eqn:S; [|exists g; split; [reflexivity|apply paints_none]].
  rewrite !small_i32 by assumption.
  destruct ((y0 <? 0) || (x_height g <=? y0)) eqn:Y.
  { exists g. split; [reflexivity|]. repeat split. intros a b [I1 I2]. replace (_ && _) with false by lia. reflexivity. }
  set (a0 := Z.max x0 0). set (a1 := Z.min x1 (x_width g)).
  destruct (Z_lt_le_dec a0 a1) as [L|L].
  2:{ replace (Z.to_nat (a1 - a0)) with 0%nat by lia. cbn [fill bind]. eexists. split; [reflexivity|].
      destruct g as [u1 u2 u3 u4 u5 u6]. cbn [with_video x_window x_screen x_rgb x_width x_height x_video] in *.
      repeat split. intros a b [I1 I2]. cbn [x_width] in I1. replace (_ && _) with false by lia. reflexivity. }
  destruct (row_bound (x_width g) (x_height g) a0 y0) as [R1 R2]; [lia..|].
  rewrite (Z.mul_comm (x_width g) y0). rewrite small_u32 by lia.
  destruct (fill_ok (x_rgb g) (Z.to_nat (a1 - a0)) (y0 * x_width g + a0) (x_video g)) as (v & E & Zv & N); [lia..|].
  rewrite E. cbn [bind]. eexists. split; [reflexivity|].
  unfold paints, with_video, pixel. cbn [x_window x_screen x_rgb x_width x_height x_video]. repeat split; [exact Zv|].
  intros a b [I1 I2]. rewrite N. cbn [andb].
  destruct (Z.eq_dec b y0) as [->|D].
  - replace (_ && _) with ((x0 <=? a) && (a <? x1) && (y0 =? y0)) by lia. reflexivity.
  - replace ((x0 <=? a) && (a <? x1) && (b =? y0)) with false by lia.
    assert (D' : b < y0 \/ y0 < b) by lia. replace (_ && _) with false; [reflexivity|]. destruct D'; nia.
Qed.

(** ** Circles *)
Lemma chk_ok z : i32_min <= z <= i32_max -> chk32 z = Ok z.
Proof. intros H. unfold chk32, in_i32. replace (_ && _) with true by lia. reflexivity. Qed.
Definition outer (xc x : Z) : Z := if x <? xc then xc - x else x - xc + 1.
Lemma outer_pos xc x : 1 <= outer xc x.
Proof. unfold outer. destruct (x <? xc) eqn:E; lia. Qed.
Lemma span_at_paints xc d row g : framed g -> i32_min <= xc - d <= i32_max -> i32_min <= xc + d <= i32_max ->
  exists g', span_at xc d row g = Ok g' /\ paints (fun a b => shows g && ((outer xc a <=? d) && (b =? row))) g g'.
Proof.
  intros F A B. unfold span_at. rewrite !chk_ok by assumption. cbn [bind]. destruct (span_paints (xc - d) (xc + d) row g F) as (g' & E & P).
  exists g'. split; [exact E|]. eapply paints_ext; [|exact P]. intros x y. cbv beta. unfold outer. f_equal. destruct (x <? xc) eqn:L; lia.
Qed.
Lemma square_le a b : 0 <= a <= b -> a * a <= b * b.
Proof. nia. Qed.
Lemma square_lt a b : 0 <= a -> 0 <= b -> a * a < (b + 1) * (b + 1) -> a <= b.
Proof. nia. Qed.
Lemma square_ltb a b : 0 <= a -> 0 <= b -> a * a < b * b -> a < b.
Proof. nia. Qed.
Section Circle.
  Context (xc yc r : Z) (Hr : 1 <= r <= 536870912) (Hx : modest 536870912 xc) (Hy : modest 536870912 yc).
  Record at_head (x y p : Z) : Prop := AtHead {
    h_x : 0 <= x; h_y : 0 <= y <= r; h_first : x = 0 -> y = r; h_near : x <= y + 2;
    h_p : p = (x + 1) * (x + 1) + y * y + y - r * r - 2 * r;
    h_le : x <= y -> p <= 2 * x;
    h_out : r * r < x * x + (y + 1) * (y + 1)
  }.
  Lemma head_step x y p : at_head x y p -> x <= y ->
    let x1 := x + 1 in
    let y1 := if p <? 0 then y else y - 1 in
    let p1 := if p <? 0 then p + (2 * x1 + 1) else p + (2 * (x1 - y) + 1) in
    at_head x1 y1 p1 /\ x1 * x1 + y1 * y1 < (r + 1) * (r + 1) /\ (y1 = y \/ y1 = y - 1 /\ r * r < x1 * x1 + y * y) /\
    - 4 * r <= p <= 4 * r /\ -4 * r - 4 <= p1 <= 4 * r + 4 /\ x <= r.
  Proof.
    intros [A1 A2 A3 A4 A5 A6 A7] L. specialize (A6 L). cbv zeta. assert (Y : 1 <= y) by lia.
    destruct (p <? 0) eqn:P.
    - assert (Q : (x + 1) * (x + 1) + y * y + y < r * r + 2 * r) by lia.
      repeat split; try lia; try nia.
    - assert (Q : r * r + 2 * r <= (x + 1) * (x + 1) + y * y + y) by lia.
      repeat split; try lia; try nia.
  Qed.

  Definition dist (b : Z) : Z := Z.abs (b - yc).
  (** What the rest of the loop paints. *)
  Lemma loop_paints fuel : forall x y p g, framed g -> at_head x y p -> y - x + 2 <= Z.of_nat fuel -> (0 < fuel)%nat ->
    exists g' f, circle_loop fuel xc yc x y p g = Ok g' /\ paints f g g' /\
      (forall a b, f a b = true -> shows g = true /\ outer xc a * outer xc a + dist b * dist b < (r + 1) * (r + 1)) /\
      (shows g = true -> forall a b, x < dist b <= y -> outer xc a * outer xc a + dist b * dist b <= r * r ->
        f a b = true \/ dist b = y /\ outer xc a <= x).
  Proof.
    unfold modest in *. induction fuel as [|fuel IH]; intros x y p g F H Fu Fp; [lia|]. cbn [circle_loop].
    destruct H as [A1 A2 A3 A4 A5 A6 A7] eqn:Hq. pose proof (AtHead _ _ _ A1 A2 A3 A4 A5 A6 A7) as H0. clear Hq H.
    rewrite chk_ok by (unfold i32_min, i32_max; lia). cbn [bind]. destruct (x <=? y) eqn:L.
    2:{ exists g, (fun _ _ => false). split; [reflexivity|]. split; [apply paints_none|]. split; [discriminate|]. intros _ a b D. lia. }
    destruct (head_step x y p H0) as (N & Q & O & P1 & P2 & Xr); [lia|]. cbv zeta in *.
    set (x1 := x + 1) in *. set (y1 := if p <? 0 then y else y - 1) in *.
    set (p1 := if p <? 0 then p + (2 * x1 + 1) else p + (2 * (x1 - y) + 1)) in *.
    assert (E : (if p <? 0 then a <- chk32 (2 * x1) ;; b <- chk32 (a + 1) ;; c <- chk32 (p + b) ;; Ok (c, y)
      else d <- chk32 (x1 - y) ;; a <- chk32 (2 * d) ;; b <- chk32 (a + 1) ;; c <- chk32 (p + b) ;; e <- chk32 (y - 1) ;; Ok (c, e)) = Ok (p1, y1)).
    { unfold p1, y1. destruct (p <? 0) eqn:Pn; repeat (rewrite chk_ok by (unfold i32_min, i32_max, x1 in *; lia); cbn [bind]); reflexivity. }
    rewrite E. cbn [bind]. clear E. assert (X1 : 1 <= x1 <= r + 1) by (unfold x1; lia). destruct N as [N1 N2 N3 N4 N5 N6 N7].
    pose proof (AtHead _ _ _ N1 N2 N3 N4 N5 N6 N7) as N.
    assert (Lx : x1 = x + 1) by reflexivity. clearbody x1 y1 p1.
    rewrite chk_ok by (unfold i32_min, i32_max; lia). cbn [bind].
    destruct (span_at_paints xc x1 (yc + y1) g F) as (g1 & E1 & Q1); [unfold i32_min, i32_max; lia..|]. rewrite E1. cbn [bind].
    pose proof (paints_framed _ _ _ Q1 F) as F1. pose proof (paints_shows _ _ _ Q1) as S1.
    rewrite chk_ok by (unfold i32_min, i32_max; lia). cbn [bind].
    destruct (span_at_paints xc x1 (yc - y1) g1 F1) as (g2 & E2 & Q2); [unfold i32_min, i32_max; lia..|]. rewrite E2. cbn [bind].
    pose proof (paints_framed _ _ _ Q2 F1) as F2. pose proof (paints_shows _ _ _ Q2) as S2.
    rewrite chk_ok by (unfold i32_min, i32_max; lia). cbn [bind].
    destruct (span_at_paints xc y1 (yc + x1) g2 F2) as (g3 & E3 & Q3); [unfold i32_min, i32_max; lia..|]. rewrite E3. cbn [bind].
    pose proof (paints_framed _ _ _ Q3 F2) as F3. pose proof (paints_shows _ _ _ Q3) as S3.
    rewrite chk_ok by (unfold i32_min, i32_max; lia). cbn [bind].
    destruct (span_at_paints xc y1 (yc - x1) g3 F3) as (g4 & E4 & Q4); [unfold i32_min, i32_max; lia..|]. rewrite E4. cbn [bind].
    pose proof (paints_framed _ _ _ Q4 F3) as F4. pose proof (paints_shows _ _ _ Q4) as S4.
    destruct (IH x1 y1 p1 g4 F4 N) as (g' & f & E5 & Q5 & C1 & C2); [lia|lia|].
    rewrite E5. eexists g', _. split; [reflexivity|].
    split; [exact (paints_trans _ _ _ _ _ (paints_trans _ _ _ _ _ (paints_trans _ _ _ _ _ (paints_trans _ _ _ _ _ Q1 Q2) Q3) Q4) Q5)|].
    rewrite S4 in C1, C2. rewrite S3 in C1, C2. rewrite S2 in C1, C2. rewrite S1 in C1, C2. rewrite S3, S2, S1. cbv beta. split.
    - intros a b T. pose proof (outer_pos xc a) as Op. apply orb_true_iff in T. destruct T as [T|T]; [apply C1; exact T|].
      assert (T' : shows g = true /\ ((outer xc a <= x1 /\ dist b = y1) \/ (outer xc a <= y1 /\ dist b = x1))).
      { unfold dist. destruct (shows g); cbn [andb] in T; [|discriminate T]. split; [reflexivity|]. lia. }
      destruct T' as [-> [[T1 T2]|[T1 T2]]]; split; auto; rewrite T2.
      + pose proof (square_le (outer xc a) x1 ltac:(lia)). lia.
      + pose proof (square_le (outer xc a) y1 ltac:(lia)). lia.
    - intros Sh a b D T. rewrite Sh. cbn [andb]. pose proof (outer_pos xc a) as Op.
      assert (K : dist b = x1 \/ (x1 < dist b /\ dist b <= y1) \/ (x1 < dist b /\ y1 < dist b)) by lia.
      destruct K as [K|[K|K]].
      + left. assert (J : outer xc a <= y1) by (rewrite K in T; apply square_lt; lia).
        assert (R : b = yc + x1 \/ b = yc - x1) by (unfold dist in K; lia). destruct R; subst b; lia.
      + destruct (C2 Sh a b K T) as [->|[J1 J2]]; [left; reflexivity|]. left.
        assert (R : b = yc + y1 \/ b = yc - y1) by (unfold dist in J1; lia). destruct R; subst b; lia.
      + right. assert (y1 = y - 1 /\ r * r < x1 * x1 + y * y) as [J1 J2] by (destruct O as [O|O]; [lia|exact O]).
        split; [lia|]. assert (dist b = y) by lia. rewrite H in T. assert (outer xc a < x1); [apply square_ltb; lia|lia].
  Qed.
End Circle.
Lemma circle_paints xc yc r g : framed g -> 1 <= r <= 536870912 -> modest 536870912 xc -> modest 536870912 yc ->
  exists g' f, circle xc yc r g = Ok g' /\ paints f g g' /\
    (forall a b, f a b = true -> shows g = true /\ far2 xc yc a b < (r + 1) * (r + 1)) /\
    (shows g = true -> forall a b, far2 xc yc a b <= r * r -> f a b = true).
Proof.
  intros F Hr Hx Hy. unfold circle. unfold modest in *. rewrite chk_ok by (unfold i32_min, i32_max; lia). cbn [bind].
  destruct (span_at_paints xc r yc g F) as (g1 & E1 & Q1); [unfold i32_min, i32_max; lia..|]. rewrite E1. cbn [bind].
  assert (H : at_head r 0 r (1 - r)) by (constructor; lia).
  destruct (loop_paints xc yc r Hr Hx Hy (S (Z.to_nat (r + 2))) 0 r (1 - r) g1 (paints_framed _ _ _ Q1 F) H) as (g' & f & E2 & Q2 & C1 & C2); [lia..|].
  rewrite E2. exists g'. eexists. split; [reflexivity|]. split; [exact (paints_trans _ _ _ _ _ Q1 Q2)|].
  rewrite (paints_shows _ _ _ Q1) in C1, C2. cbv beta.
  assert (Fa : forall a b, far2 xc yc a b = outer xc a * outer xc a + dist yc b * dist yc b).
  { intros a b. unfold far2, outer, dist. destruct (Z.abs_spec (b - yc)) as [[_ ->]|[_ ->]]; cbv zeta; lia. }
  split.
  - intros a b T. rewrite Fa. apply orb_true_iff in T. destruct T as [T|T]; [apply C1; exact T|].
    destruct (shows g); [|discriminate T]. split; [reflexivity|]. assert (outer xc a <= r /\ b = yc) as [T1 ->] by lia.
    pose proof (outer_pos xc a). pose proof (square_le (outer xc a) r ltac:(lia)). unfold dist. replace (yc - yc) with 0 by lia. cbn [Z.abs]. lia.
  - intros Sh a b T. rewrite Fa in T. rewrite Sh. cbn [andb]. pose proof (outer_pos xc a) as O.
    pose proof (square_le 1 (outer xc a) ltac:(lia)) as O2.
    assert (D : 0 <= dist yc b) by (unfold dist; lia).
    destruct (Z.eq_dec (dist yc b) 0) as [Z0|N].
    + assert (b = yc) by (unfold dist in Z0; lia). subst b. rewrite Z0 in T. assert (outer xc a <= r) by (apply square_lt; lia). lia.
    + assert (B : dist yc b <= r) by (apply square_lt; lia).
      destruct (C2 Sh a b) as [->|[J1 J2]]; [lia|exact T|reflexivity|lia].
Qed.
Lemma circle_nothing xc yc r g : framed g -> modest 536870912 r -> r < 0 -> modest 536870912 xc -> modest 536870912 yc ->
  exists g', circle xc yc r g = Ok g' /\ paints (fun _ _ => false) g g'.
Proof.
  intros F Hr Rn Hx Hy. unfold circle. unfold modest in *. rewrite chk_ok by (unfold i32_min, i32_max; lia). cbn [bind].
  destruct (span_at_paints xc r yc g F) as (g1 & E1 & Q1); [unfold i32_min, i32_max; lia..|]. rewrite E1. cbn [bind circle_loop].
  rewrite chk_ok by (unfold i32_min, i32_max; lia). cbn [bind]. replace (0 <=? r) with false by lia. exists g1. split; [reflexivity|].
  eapply paints_ext; [|exact Q1]. intros a b. cbv beta. pose proof (outer_pos xc a). destruct (shows g); cbn [andb]; lia.
Qed.
Lemma circle_dot xc yc g : framed g -> modest 536870912 xc -> modest 536870912 yc ->
  exists g', circle xc yc 0 g = Ok g' /\
    paints (fun a b => shows g && ((xc - 1 <=? a) && (a <=? xc) && ((b =? yc - 1) || (b =? yc + 1)))) g g'.
Proof.
  intros F Hx Hy. unfold circle. unfold modest in *. rewrite chk_ok by (unfold i32_min, i32_max; lia). cbn [bind].
  destruct (span_at_paints xc 0 yc g F) as (g0 & E0 & Q0); [unfold i32_min, i32_max; lia..|]. rewrite E0. cbn [bind].
  change (S (Z.to_nat (0 + 2))) with 3%nat. cbn [circle_loop]. change (chk32 (0 + 1)) with (Ok 1). cbn [bind].
  change (0 <=? 0) with true. change (1 - 0 <? 0) with false. cbv iota. change (chk32 (1 - 0)) with (Ok 1). cbn [bind].
  change (chk32 (2 * 1)) with (Ok 2). cbn [bind]. change (chk32 (2 + 1)) with (Ok 3). cbn [bind].
  change (chk32 (1 - 0 + 3)) with (Ok 4). cbn [bind]. change (chk32 (0 - 1)) with (Ok (-1)). cbn [bind].
  pose proof (paints_framed _ _ _ Q0 F) as F0. pose proof (paints_shows _ _ _ Q0) as S0.
  rewrite chk_ok by (unfold i32_min, i32_max; lia). cbn [bind].
  destruct (span_at_paints xc 1 (yc + -1) g0 F0) as (g1 & E1 & Q1); [unfold i32_min, i32_max; lia..|]. rewrite E1. cbn [bind].
  pose proof (paints_framed _ _ _ Q1 F0) as F1. pose proof (paints_shows _ _ _ Q1) as S1.
  rewrite chk_ok by (unfold i32_min, i32_max; lia). cbn [bind].
  destruct (span_at_paints xc 1 (yc - -1) g1 F1) as (g2 & E2 & Q2); [unfold i32_min, i32_max; lia..|]. rewrite E2. cbn [bind].
  pose proof (paints_framed _ _ _ Q2 F1) as F2. pose proof (paints_shows _ _ _ Q2) as S2.
  rewrite chk_ok by (unfold i32_min, i32_max; lia). cbn [bind].
  destruct (span_at_paints xc (-1) (yc + 1) g2 F2) as (g3 & E3 & Q3); [unfold i32_min, i32_max; lia..|]. rewrite E3. cbn [bind].
  pose proof (paints_framed _ _ _ Q3 F2) as F3. pose proof (paints_shows _ _ _ Q3) as S3.
  rewrite chk_ok by (unfold i32_min, i32_max; lia). cbn [bind].
  destruct (span_at_paints xc (-1) (yc - 1) g3 F3) as (g4 & E4 & Q4); [unfold i32_min, i32_max; lia..|]. rewrite E4. cbn [bind].
  change (chk32 (1 + 1)) with (Ok 2). cbn [bind]. change (1 <=? -1) with false. cbv iota. exists g4. split; [reflexivity|].
  eapply paints_ext; [|exact (paints_trans _ _ _ _ _ (paints_trans _ _ _ _ _ (paints_trans _ _ _ _ _ (paints_trans _ _ _ _ _ Q0 Q1) Q2) Q3) Q4)].
  intros a b. cbv beta. rewrite S3, S2, S1, S0. unfold outer. destruct (shows g); cbn [andb]; [|reflexivity]. destruct (a <? xc) eqn:L; lia.
Qed.

(** ** Lines *)
Lemma line_loop_paints longer x y inc step L : modest 32768 x -> modest 32768 y -> 0 <= L <= 65536 ->
  inc = 1 \/ inc = -1 -> (forall k, 0 <= k <= L -> modest 2147418112 (k * step)) -> forall fuel k g, framed g -> 0 <= k <= L -> L - k < Z.of_nat fuel ->
  exists g' f, line_loop fuel longer x y (inc * k) (k * step) (inc * L) inc step g = Ok g' /\ paints f g g' /\
    forall a b, f a b = true <-> shows g = true /\ exists n, k <= n < L /\
      a = x + (if longer then n * step / 65536 else inc * n) /\ b = y + (if longer then inc * n else n * step / 65536).
Proof.
  intros Hx Hy HL Hi Hs. unfold modest in *. induction fuel as [|fuel IH]; intros k g F Hk Fu; [lia|]. cbn [line_loop].
  destruct (inc * k =? inc * L) eqn:S0.
  - assert (k = L) by (destruct Hi; subst inc; lia). subst k. exists g, (fun _ _ => false). split; [reflexivity|]. split; [apply paints_none|].
    intros a b. split; [discriminate|]. intros (_ & n & N & _). lia.
  - assert (K : k < L) by (destruct Hi; subst inc; lia). rewrite Z.shiftr_div_pow2 by lia. change (2 ^ 16) with 65536.
    pose proof (Hs k ltac:(lia)) as B1. pose proof (Hs (k + 1) ltac:(lia)) as B2.
    assert (D : -32767 <= k * step / 65536 <= 32767) by (split; [apply Z.div_le_lower_bound; lia|]; apply Z.div_le_upper_bound; lia).
    set (m := k * step / 65536) in *.
    assert (I0 : -65536 <= inc * k <= 65536) by (destruct Hi; subst inc; lia).
    rewrite chk_ok by (unfold i32_min, i32_max; destruct longer; lia). cbn [bind].
    rewrite chk_ok by (unfold i32_min, i32_max; destruct longer; lia). cbn [bind].
    destruct (plot_paints (x + (if longer then m else inc * k)) (y + (if longer then inc * k else m)) g F) as (g1 & E1 & Q1). rewrite E1. cbn [bind].
    replace (inc * k + inc) with (inc * (k + 1)) by lia. replace (k * step + step) with ((k + 1) * step) by lia.
    rewrite chk_ok by (unfold i32_min, i32_max; destruct Hi; subst inc; lia). cbn [bind].
    rewrite chk_ok by (unfold i32_min, i32_max; lia). cbn [bind].
    destruct (IH (k + 1) g1 (paints_framed _ _ _ Q1 F)) as (g' & f & E2 & Q2 & C); [lia..|].
    rewrite E2. exists g'. eexists. split; [reflexivity|]. split; [exact (paints_trans _ _ _ _ _ Q1 Q2)|].
    rewrite (paints_shows _ _ _ Q1) in C. intros a b. cbv beta. rewrite orb_true_iff, C, !andb_true_iff. split.
    + intros [[Sh (n & N & A & B)]|[Sh [A B]]]; split; auto; [exists n|exists k]; (split; [lia|]); split; auto; fold m; lia.
    + intros [Sh (n & N & A & B)]. destruct (Z.eq_dec n k) as [->|D2]; [right|left].
      * split; [exact Sh|]. fold m in A, B. lia.
      * split; [exact Sh|]. exists n. split; [lia|auto].
Qed.
Lemma step_near s L k : 0 < L <= 65536 -> 0 <= k < L -> Z.abs s <= L ->
  let m := k * Z.quot (s * 65536) L / 65536 in
  Z.abs (m * L - k * s) < 2 * L /\ (0 <= m <= s \/ s <= m <= 0).
Proof.
  intros HL Hk Hs. cbv zeta. set (q := Z.quot (s * 65536) L).
  assert (Q : (0 <= s /\ 0 <= q /\ q * L <= s * 65536 < q * L + L) \/ (s < 0 /\ q <= 0 /\ q * L - L < s * 65536 <= q * L)).
  { unfold q. destruct (Z_lt_le_dec s 0).
    - right. replace (s * 65536) with (- ((- s) * 65536)) by lia. rewrite Z.quot_opp_l by lia. rewrite Z.quot_div_nonneg by lia.
      pose proof (Z.div_mod ((- s) * 65536) L ltac:(lia)). pose proof (Z.mod_pos_bound ((- s) * 65536) L ltac:(lia)).
      pose proof (Z.div_pos ((- s) * 65536) L ltac:(lia) ltac:(lia)). lia.
    - left. rewrite Z.quot_div_nonneg by lia. pose proof (Z.div_mod (s * 65536) L ltac:(lia)). pose proof (Z.mod_pos_bound (s * 65536) L ltac:(lia)).
      pose proof (Z.div_pos (s * 65536) L ltac:(lia) ltac:(lia)). lia. }
  pose proof (Z.div_mod (k * q) 65536 ltac:(lia)) as D. pose proof (Z.mod_pos_bound (k * q) 65536 ltac:(lia)) as M.
  set (m := k * q / 65536) in *. set (e := (k * q) mod 65536) in *. clearbody m e q.
  (* 65536 * m = k q - e *)
  assert (A1 : 65536 * (m * L) = k * (q * L) - e * L) by nia.
  assert (E1 : 0 <= e * L < 65536 * L) by nia.
  destruct Q as [(S1 & Q0 & Q1)|(S1 & Q0 & Q1)].
  - assert (B1 : k * (q * L) <= k * (s * 65536) <= k * (q * L) + k * L) by nia.
    assert (B2 : k * L <= 65536 * L) by nia.
    assert (B3 : 0 <= k * q) by nia. assert (B4 : k * q <= s * 65536) by nia.
    split; [lia|left; lia].
  - assert (B1 : k * (q * L) - k * L <= k * (s * 65536) <= k * (q * L)) by nia.
    assert (B2 : k * L < 65536 * L) by nia.
    assert (B3 : k * q <= 0) by nia. assert (B4 : s * 65536 <= k * q) by nia.
    split; [lia|right; lia].
Qed.
Lemma line_paints x0 y0 x1 y1 g : framed g -> modest 16383 x0 -> modest 16383 y0 -> modest 16383 x1 -> modest 16383 y1 ->
  let dx := x1 - x0 in let dy := y1 - y0 in
  let steep := Z.abs dx <? Z.abs dy in
  let long := if steep then dy else dx in let short := if steep then dx else dy in
  exists g' f m, line x0 y0 x1 y1 g = Ok g' /\ paints f g g' /\ m 0 = 0 /\
    (forall k, 0 <= k < Z.abs long -> Z.abs (m k * Z.abs long - k * short) < 2 * Z.abs long /\ (0 <= m k <= short \/ short <= m k <= 0)) /\
    (forall a b, f a b = true <-> shows g = true /\ exists k, 0 <= k < Z.abs long /\
      a = x0 + (if steep then m k else Z.sgn long * k) /\ b = y0 + (if steep then Z.sgn long * k else m k)).
Proof.
  intros F A B C D dx dy steep long short. unfold modest in A, B, C, D. unfold line. fold dx dy.
  assert (Ax : forall z, -40000 <= z <= 40000 -> abs32 z = Ok (Z.abs z)).
  { intros z H. unfold abs32. destruct (z <? 0) eqn:N; [rewrite chk_ok by (unfold i32_min, i32_max; lia)|]; f_equal; lia. }
  assert (Bx : -32766 <= dx <= 32766) by (unfold dx; lia). assert (By : -32766 <= dy <= 32766) by (unfold dy; lia).
  rewrite !chk_ok by (unfold i32_min, i32_max; lia). cbn [bind]. rewrite !Ax by lia. cbn [bind]. fold steep. fold long. fold short. cbv zeta.
  assert (Bs : Z.abs short <= Z.abs long /\ Z.abs long <= 32766) by (unfold short, long, steep; destruct (Z.abs dx <? Z.abs dy) eqn:E; lia).
  rewrite Ax by lia. cbn [bind]. clearbody steep long short. clearbody dx dy.
  set (inc := if long <? 0 then -1 else 1). set (step := if Z.abs long =? 0 then 0 else Z.quot (short * 65536) (Z.abs long)).
  assert (E : (if Z.abs long =? 0 then Ok 0 else s <- chk32 (short * 65536) ;; Ok (Z.quot s (Z.abs long))) = Ok step).
  { unfold step. destruct (Z.abs long =? 0); [reflexivity|]. rewrite chk_ok by (unfold i32_min, i32_max; lia). reflexivity. }
  rewrite E. cbn [bind]. clear E.
  assert (I1 : inc * Z.abs long = long) by (unfold inc; destruct (long <? 0) eqn:N; lia).
  assert (I2 : inc = 1 \/ inc = -1) by (unfold inc; destruct (long <? 0); auto).
  assert (I3 : 0 < Z.abs long -> inc = Z.sgn long) by (unfold inc; destruct (long <? 0) eqn:N; lia).
  assert (G : Z.abs (Z.abs long * step) <= 32766 * 65536).
  { unfold step. destruct (Z.abs long =? 0) eqn:Z0; [lia|]. 
    pose proof (Z.quot_rem (short * 65536) (Z.abs long) ltac:(lia)) as R.
    destruct (Z_lt_le_dec short 0).
    - pose proof (Z.rem_nonpos (short * 65536) (Z.abs long) ltac:(lia) ltac:(lia)).
      assert (Z.quot (short * 65536) (Z.abs long) <= 0).
      { replace (short * 65536) with (- ((- short) * 65536)) by lia. rewrite Z.quot_opp_l by lia. pose proof (Z.quot_pos ((- short) * 65536) (Z.abs long) ltac:(lia) ltac:(lia)). lia. }
      nia.
    - pose proof (Z.rem_nonneg (short * 65536) (Z.abs long) ltac:(lia) ltac:(lia)).
      pose proof (Z.quot_pos (short * 65536) (Z.abs long) ltac:(lia) ltac:(lia)). nia. }
  destruct (line_loop_paints steep x0 y0 inc step (Z.abs long)) with (fuel := S (Z.to_nat (Z.abs long))) (k := 0) (g := g) as (g' & f & E & P & Q);
    try (unfold modest; lia); try assumption.
  { intros k Hk. unfold modest. assert (Z.abs (k * step) <= Z.abs (Z.abs long * step)); [rewrite !Z.abs_mul; nia|lia]. }
  rewrite I1 in E. rewrite Z.mul_0_r in E. cbn [Z.mul] in E. rewrite E.
  exists g', f, (fun k => k * step / 65536). split; [reflexivity|]. split; [exact P|]. split; [reflexivity|]. split.
  - intros k Hk. unfold step. replace (Z.abs long =? 0) with false by lia. apply (step_near short (Z.abs long) k); lia.
  - intros a b. rewrite Q. split; intros (Sh & k & Hk & Ea & Eb); (split; [exact Sh|]); exists k; (split; [exact Hk|]); rewrite I3 in * by lia; auto.
Qed.

(** ** Any arguments *)
(** The function either computes outside 32 bits or paints something. *)
Definition fine (g : gfx) (r : res gfx) : Prop :=
  r = Stuck SOverflow \/ exists g' f, r = Ok g' /\ paints f g g'.
Lemma fine_trans f g g1 r : paints f g g1 -> fine g1 r -> fine g r.
Proof. intros P [->|(g' & h & -> & Q)]; [left; reflexivity|right]. exists g'. eexists. split; [reflexivity|]. exact (paints_trans _ _ _ _ _ P Q). Qed.
Lemma fine_chk g z k : (forall v, fine g (k v)) -> fine g (v <- chk32 z ;; k v).
Proof. intros H. unfold chk32. destruct (in_i32 z); cbn [bind]; [apply H|left; reflexivity]. Qed.
Lemma fine_span g xc d y k : framed g -> (forall g', framed g' -> fine g' (k g')) -> fine g (v <- span_at xc d y g ;; k v).
Proof.
  intros F H. unfold span_at, chk32. destruct (in_i32 (xc - d)); cbn [bind]; [|left; reflexivity]. destruct (in_i32 (xc + d)); cbn [bind]; [|left; reflexivity].
  destruct (span_paints (xc - d) (xc + d) y g F) as (g1 & -> & P). cbn [bind]. exact (fine_trans _ _ _ _ P (H g1 (paints_framed _ _ _ P F))).
Qed.
Lemma circle_loop_fine xc yc : forall fuel x y p g, framed g -> y - x + 1 < Z.of_nat fuel -> (0 < fuel)%nat -> fine g (circle_loop fuel xc yc x y p g).
Proof.
  induction fuel as [|fuel IH]; intros x y p g F Fu Pos; [lia|]. cbn [circle_loop]. unfold chk32 at 1. destruct (in_i32 (x + 1)); cbn [bind]; [|left; reflexivity].
  destruct (x <=? y) eqn:L; [|right; exists g; eexists; split; [reflexivity|apply paints_none]].
  assert (K : forall p1 y1, y1 <= y -> fine g (r1 <- chk32 (yc + y1) ;; g1 <- span_at xc (x + 1) r1 g ;;
        r2 <- chk32 (yc - y1) ;; g2 <- span_at xc (x + 1) r2 g1 ;;
        r3 <- chk32 (yc + (x + 1)) ;; g3 <- span_at xc y1 r3 g2 ;;
        r4 <- chk32 (yc - (x + 1)) ;; g4 <- span_at xc y1 r4 g3 ;;
        circle_loop fuel xc yc (x + 1) y1 p1 g4)).
  { intros p1 y1 Y. apply fine_chk; intros r1. apply fine_span; [exact F|]. intros g1 F1. apply fine_chk; intros r2. apply fine_span; [exact F1|].
    intros g2 F2. apply fine_chk; intros r3. apply fine_span; [exact F2|]. intros g3 F3. apply fine_chk; intros r4. apply fine_span; [exact F3|].
    intros g4 F4. apply IH; [exact F4|lia|lia]. }
  destruct (p <? 0).
  - unfold chk32 at 1 2 3. destruct (in_i32 (2 * (x + 1))); cbn [bind]; [|left; reflexivity].
    destruct (in_i32 (2 * (x + 1) + 1)); cbn [bind]; [|left; reflexivity]. destruct (in_i32 (p + (2 * (x + 1) + 1))); cbn [bind]; [|left; reflexivity].
    apply K. lia.
  - unfold chk32 at 1 2 3 4 5. destruct (in_i32 (x + 1 - y)); cbn [bind]; [|left; reflexivity].
    destruct (in_i32 (2 * (x + 1 - y))); cbn [bind]; [|left; reflexivity]. destruct (in_i32 (2 * (x + 1 - y) + 1)); cbn [bind]; [|left; reflexivity].
    destruct (in_i32 (p + (2 * (x + 1 - y) + 1))); cbn [bind]; [|left; reflexivity]. destruct (in_i32 (y - 1)); cbn [bind]; [|left; reflexivity].
    apply K. lia.
Qed.
Lemma circle_fine xc yc r g : framed g -> fine g (circle xc yc r g).
Proof.
  intros F. unfold circle. apply fine_chk; intros p. apply fine_span; [exact F|]. intros g1 F1. apply circle_loop_fine; [exact F1|lia|lia].
Qed.
Lemma line_loop_fine longer x y stop inc step : forall fuel i j g, framed g ->
  (exists k, 0 <= k < Z.of_nat fuel /\ stop = i + k * inc) -> fine g (line_loop fuel longer x y i j stop inc step g).
Proof.
  induction fuel as [|fuel IH]; intros i j g F (k & Hk & E); [lia|]. cbn [line_loop].
  destruct (i =? stop) eqn:S0; [right; exists g; eexists; split; [reflexivity|apply paints_none]|].
  apply fine_chk; intros px. apply fine_chk; intros py. destruct (plot_paints px py g F) as (g1 & -> & P). cbn [bind].
  apply (fine_trans _ _ _ _ P). unfold chk32 at 1. destruct (in_i32 (i + inc)); cbn [bind]; [|left; reflexivity]. apply fine_chk; intros j1.
  apply IH; [exact (paints_framed _ _ _ P F)|]. exists (k - 1). assert (k <> 0) by (intros ->; lia). split; lia.
Qed.
Lemma line_fine x0 y0 x1 y1 g : framed g -> fine g (line x0 y0 x1 y1 g).
Proof.
  intros F. unfold line. apply fine_chk; intros dy. apply fine_chk; intros dx.
  assert (A : forall z k, (forall v, v = Z.abs z -> fine g (k v)) -> fine g (v <- abs32 z ;; k v)).
  { intros z k H. unfold abs32, chk32. destruct (z <? 0) eqn:N; [destruct (in_i32 (- z))|]; cbn [bind]; try (left; reflexivity); apply H; lia. }
  apply A; intros ay ->. apply A; intros ax ->. cbv zeta. apply A; intros len ->.
  set (long := if Z.abs dx <? Z.abs dy then dy else dx). set (inc := if long <? 0 then -1 else 1).
  assert (E : exists k, 0 <= k < Z.of_nat (S (Z.to_nat (Z.abs long))) /\ long = 0 + k * inc).
  { exists (Z.abs long). unfold inc. destruct (long <? 0) eqn:N; lia. }
  destruct (Z.abs long =? 0); cbn [bind]; [apply line_loop_fine; [exact F|exact E]|].
  unfold chk32. destruct (in_i32 _); cbn [bind]; [|left; reflexivity]. apply line_loop_fine; [exact F|exact E].
Qed.

(** ** Clearing and sizes *)
Lemma cls_rows_ok w h : 0 <= w -> forall n y l, 0 <= y -> y + Z.of_nat n = h -> zlen l = w * h ->
  exists l', cls_rows n w (y * w) l = Ok l' /\ zlen l' = zlen l /\ forall k, znth l' k = if (y * w <=? k) && (k <? w * h) then Some 0 else znth l k.
Proof.
  intros W. induction n as [|n IH]; intros y l Y E L; cbn [cls_rows].
  - exists l. split; [reflexivity|]. split; [reflexivity|]. intros k. assert (y = h) by lia. subst. replace (_ && _) with false by lia. reflexivity.
  - assert (B : y * w + w <= w * h) by nia. destruct (fill_ok 0 (Z.to_nat w) (y * w) l) as (l1 & E1 & Z1 & N1); [nia|lia|]. rewrite E1. cbn [bind].
    replace (y * w + w) with ((y + 1) * w) by lia. destruct (IH (y + 1) l1) as (l' & E2 & Z2 & N2); [lia..|]. exists l'. split; [exact E2|]. split; [lia|].
    intros k. rewrite N2, N1. destruct (((y + 1) * w <=? k) && (k <? w * h)) eqn:A.
    + replace ((y * w <=? k) && (k <? w * h)) with true by nia. reflexivity.
    + destruct ((y * w <=? k) && (k <? y * w + Z.of_nat (Z.to_nat w))) eqn:B1.
      * replace ((y * w <=? k) && (k <? w * h)) with true by lia. reflexivity.
      * replace ((y * w <=? k) && (k <? w * h)) with false by lia. reflexivity.
Qed.
Lemma cls_ok g : framed g -> exists g', cls g = Ok g' /\
  x_window g' = x_window g /\ x_screen g' = x_screen g /\ x_rgb g' = x_rgb g /\ x_width g' = x_width g /\ x_height g' = x_height g /\
  zlen (x_video g') = zlen (x_video g) /\ forall x y, inside g x y -> pixel g' x y = Some 0.
Proof.
  intros (F1 & F2 & F3 & F4). unfold cls. destruct (cls_rows_ok (x_width g) (x_height g) ltac:(lia) (Z.to_nat (x_height g)) 0 (x_video g)) as (l' & E & Z1 & N); [lia..|].
  cbn [Z.mul] in E. rewrite E. cbn [bind]. eexists. split; [reflexivity|]. unfold with_video, pixel. cbn [x_window x_screen x_rgb x_width x_height x_video]. repeat split; auto.
  intros x y [I1 I2]. destruct (row_bound _ _ x y I1 I2). rewrite N. replace (_ && _) with true by lia. reflexivity.
Qed.
Lemma video_ok window surface w h g : 0 <= w -> 0 <= h -> w <= i32_max -> h <= i32_max -> w * h <= i32_max ->
  exists g', video window surface w h g = Ok (if window && match surface with Some _ => true | None => false end then 0 else 1, g') /\
    framed g' /\ x_window g' = window /\ x_screen g' = (if window then surface else x_screen g) /\ x_rgb g' = x_rgb g /\
    x_width g' = w /\ x_height g' = h /\ forall x y, inside g' x y -> pixel g' x y = Some 0.
Proof.
  intros W H Wm Hm P. unfold video. assert (P0 : 0 <= w * h) by nia. rewrite chk_ok by (unfold i32_min, i32_max in *; lia). cbn [bind].
  replace (w * h <? 0) with false by lia. rewrite !small_u32 by lia. cbv zeta.
  exists (Gfx window (if window then surface else x_screen g) (x_rgb g) w h (zrepeat 0 (w * h))). split; [|split; [|split; [|split; [|split; [|split; [|split]]]]]].
  - destruct window; cbn [negb orb andb]; [|reflexivity]. destruct surface; reflexivity.
  - unfold framed. cbn [x_width x_height x_video]. rewrite zlen_zrepeat. repeat split; lia.
  - reflexivity.
  - reflexivity.
  - reflexivity.
  - reflexivity.
  - reflexivity.
  - intros x y [I1 I2]. cbn [x_width x_height] in I1, I2. unfold pixel. cbn [x_width x_video]. destruct (row_bound w h x y I1 I2). apply znth_zrepeat. lia.
Qed.
Lemma framed_start : framed gfx_start.
Proof. unfold framed, gfx_start. cbn [x_width x_height x_video]. unfold i32_max. repeat split; reflexivity || lia. Qed.

(** ** Showing *)
Ltac st := rewrite store_ok by (rewrite ?zlen_zupd; lia); cbn [bind].
Lemma block_ok d j w c l : 0 <= d -> 0 <= j -> j + 3 <= 3 * w -> 9 * w <= i32_max -> d + 9 * w <= zlen l ->
  exists l', block d j (3 * w) (6 * w) c l = Ok l' /\ zlen l' = zlen l /\
    (forall r t, 0 <= r < 3 -> 0 <= t < 3 * w -> znth l' (d + r * (3 * w) + t) = if (j <=? t) && (t <? j + 3) then Some c else znth l (d + r * (3 * w) + t)) /\
    forall i, i < d \/ d + 9 * w <= i -> znth l' i = znth l i.
Proof.
  intros D J W M L. unfold block. rewrite !small_u32 by lia. do 8 st. rewrite store_ok by (rewrite ?zlen_zupd; lia). eexists. split; [reflexivity|].
  rewrite !zlen_zupd. split; [reflexivity|].
  assert (U : forall (m : list Z) i v k, 0 <= i < zlen m -> znth (zupd m i v) k = if k =? i then Some v else znth m k).
  { intros m i v k B. destruct (k =? i) eqn:Q; [assert (k = i) by lia; subst k; apply znth_zupd_same; exact B|apply znth_zupd_other; lia]. }
  split.
  - intros r t R T. rewrite !U by (rewrite ?zlen_zupd; lia).
    assert (r = 0 \/ r = 1 \/ r = 2) as [->|[->| ->]] by lia;
    (destruct ((j <=? t) && (t <? j + 3)) eqn:B;
      [ assert (t = j \/ t = j + 1 \/ t = j + 2) as [->|[->| ->]] by lia;
        repeat (match goal with |- (if ?b then _ else _) = _ => destruct b eqn:? end; [reflexivity|]); exfalso; lia
      | repeat (match goal with |- (if ?b then _ else _) = _ => destruct b eqn:? end; [exfalso; lia|]); reflexivity ]).
  - intros i I. rewrite !U by (rewrite ?zlen_zupd; lia). repeat (match goal with |- (if ?b then _ else _) = _ => destruct b eqn:? end; [exfalso; lia|]). reflexivity.
Qed.
Lemma flip_row_ok v s d w : 0 <= d -> 9 * w <= i32_max -> forall n x l, 0 <= x -> x + Z.of_nat n <= w -> 0 <= s -> s + x + Z.of_nat n <= zlen v -> d + 9 * w <= zlen l ->
  exists l', flip_row n v s d x (3 * x) (3 * w) (6 * w) l = Ok l' /\ zlen l' = zlen l /\
    (forall r t, 0 <= r < 3 -> 0 <= t < 3 * w ->
       znth l' (d + r * (3 * w) + t) = if (3 * x <=? t) && (t <? 3 * (x + Z.of_nat n)) then znth v (s + t / 3) else znth l (d + r * (3 * w) + t)) /\
    forall i, i < d \/ d + 9 * w <= i -> znth l' i = znth l i.
Proof.
  intros D M. induction n as [|n IH]; intros x l X W Sn V L; cbn [flip_row].
  - exists l. split; [reflexivity|]. split; [reflexivity|]. split; [|reflexivity]. intros r t _ _. replace (_ && _) with false by lia. reflexivity.
  - destruct (znth_in v (s + x)) as (c & C); [lia|]. rewrite C.
    destruct (block_ok d (3 * x) w c l) as (l1 & E1 & Z1 & N1 & O1); [lia..|]. rewrite E1. cbn [bind]. rewrite small_u32 by lia.
    replace (3 * x + 3) with (3 * (x + 1)) by lia. destruct (IH (x + 1) l1) as (l' & E2 & Z2 & N2 & O2); [lia..|]. exists l'. split; [exact E2|]. split; [lia|]. split.
    + intros r t R T. rewrite N2, N1 by assumption. destruct ((3 * (x + 1) <=? t) && _) eqn:A; [replace (_ && _) with true by lia; reflexivity|].
      destruct ((3 * x <=? t) && (t <? 3 * x + 3)) eqn:B.
      * replace (_ && _) with true by lia. replace (t / 3) with x by (apply Z.div_unique with (r := t - 3 * x); lia). symmetry. exact C.
      * replace (_ && _) with false by lia. reflexivity.
    + intros i I. rewrite O2, O1 by exact I. reflexivity.
Qed.
Lemma flip_rows_ok v w h : 0 <= h <= w -> 9 * w <= i32_max -> zlen v = w * h -> forall n y l, 0 <= y -> y + Z.of_nat n = h -> zlen l = 9 * (w * h) ->
  exists l', flip_rows n h w v (y * w) (y * (9 * w)) (3 * w) (6 * w) l = Ok l' /\ zlen l' = zlen l /\
    (forall X Y, 0 <= X < 3 * w -> 0 <= Y < 3 * h ->
       znth l' (Y * (3 * w) + X) = if (3 * y <=? Y) && (X <? 3 * h) then znth v (Y / 3 * w + X / 3) else znth l (Y * (3 * w) + X)).
Proof.
  intros H M V. induction n as [|n IH]; intros y l Y E L; cbn [flip_rows].
  - exists l. split; [reflexivity|]. split; [reflexivity|]. intros X Y0 _ Q. replace (_ && _) with false by lia. reflexivity.
  - assert (B : 0 <= y * w /\ y * w + w <= w * h) by nia.
    destruct (flip_row_ok v (y * w) (y * (9 * w)) w ltac:(lia) M (Z.to_nat h) 0 l) as (l1 & E1 & Z1 & N1 & O1); [lia..|].
    change (3 * 0) with 0 in *. rewrite E1. cbn [bind]. rewrite small_u32 by lia. replace (y * w + w) with ((y + 1) * w) by lia.
    replace (y * (9 * w) + 3 * w * 3) with ((y + 1) * (9 * w)) by lia.
    destruct (IH (y + 1) l1) as (l' & E2 & Z2 & N2); [lia..|]. exists l'. split; [exact E2|]. split; [lia|].
    intros X Y0 HX HY. rewrite N2 by assumption. destruct ((3 * (y + 1) <=? Y0) && _) eqn:A; [replace (_ && _) with true by lia; reflexivity|].
    destruct (Z_lt_le_dec Y0 (3 * y)) as [Lo|Hi].
    + rewrite O1 by (left; nia). replace (_ && _) with false by lia. reflexivity.
    + destruct (Z_lt_le_dec Y0 (3 * y + 3)) as [In|Out].
      * replace (Y0 * (3 * w) + X) with (y * (9 * w) + (Y0 - 3 * y) * (3 * w) + X) by lia. rewrite N1 by lia.
        replace (Y0 / 3) with y by (apply Z.div_unique with (r := Y0 - 3 * y); lia). destruct (X <? 3 * h) eqn:T.
        -- replace (_ && _) with true by lia. replace (_ && _) with true by lia. reflexivity.
        -- replace (_ && _) with false by lia. replace (_ && _) with false by lia. reflexivity.
      * rewrite O1 by (right; nia). replace (_ && _) with false by lia. reflexivity.
Qed.
Lemma flip_ok g l : framed g -> x_screen g = Some l -> zlen l = 9 * (x_width g * x_height g) -> x_height g <= x_width g -> 9 * x_width g <= i32_max ->
  exists l', flip g = Ok (Gfx (x_window g) (Some l') (x_rgb g) (x_width g) (x_height g) (x_video g)) /\ zlen l' = zlen l /\
    forall X Y, 0 <= X < 3 * x_width g -> 0 <= Y < 3 * x_height g ->
      znth l' (Y * (3 * x_width g) + X) = if X <? 3 * x_height g then pixel g (X / 3) (Y / 3) else znth l (Y * (3 * x_width g) + X).
Proof.
  intros (F1 & F2 & F3 & F4) E L H M. unfold flip. rewrite E. cbv zeta. replace (x_width g * 3) with (3 * x_width g) by lia.
  rewrite (small_u32 (3 * x_width g)) by lia. replace (3 * x_width g + 3 * x_width g) with (6 * x_width g) by lia. rewrite (small_u32 (6 * x_width g)) by lia.
  destruct (flip_rows_ok (x_video g) (x_width g) (x_height g) ltac:(lia) M F3 (Z.to_nat (x_height g)) 0 l) as (l' & E1 & Z1 & N1); [lia..|].
  rewrite !Z.mul_0_l in E1. rewrite E1. cbn [bind]. exists l'. split; [reflexivity|]. split; [exact Z1|]. intros X Y HX HY. rewrite N1 by assumption. unfold pixel.
  replace (3 * 0 <=? Y) with true by lia. reflexivity.
Qed.

(** A store or a read outside is all that can go wrong. *)
Definition oob_only {A} (r : res A) : Prop := (exists a, r = Ok a) \/ r = Stuck SOob.
Lemma store_oob l i c : oob_only (store l i c).
Proof. unfold store. destruct (znth l i); [left; eauto|right; reflexivity]. Qed.
Lemma oob_bind {A B} (m : res A) (k : A -> res B) : oob_only m -> (forall a, oob_only (k a)) -> oob_only (a <- m ;; k a).
Proof. intros [(a & ->)| ->] H; cbn [bind]; [apply H|right; reflexivity]. Qed.
Lemma block_oob d j p1 p2 c l : oob_only (block d j p1 p2 c l).
Proof. unfold block. repeat (apply oob_bind; [apply store_oob|intros]). apply store_oob. Qed.
Lemma flip_row_oob v s d p1 p2 : forall n x j l, oob_only (flip_row n v s d x j p1 p2 l).
Proof.
  induction n as [|n IH]; intros x j l; cbn [flip_row]; [left; eauto|]. destruct (znth v (s + x)); [|right; reflexivity].
  apply oob_bind; [apply block_oob|auto].
Qed.
Lemma flip_rows_oob h w v p1 p2 : forall n s d l, oob_only (flip_rows n h w v s d p1 p2 l).
Proof. induction n as [|n IH]; intros s d l; cbn [flip_rows]; [left; eauto|]. apply oob_bind; [apply flip_row_oob|auto]. Qed.
Lemma flip_row_reads v s d p1 p2 : forall n x j l l', flip_row n v s d x j p1 p2 l = Ok l' -> forall k, x <= k < x + Z.of_nat n -> exists c, znth v (s + k) = Some c.
Proof.
  induction n as [|n IH]; intros x j l l' E k K; cbn [flip_row] in E; [lia|]. destruct (znth v (s + x)) as [c|] eqn:C; [|discriminate E].
  apply bind_ok in E. destruct E as (l1 & _ & E). destruct (Z.eq_dec k x) as [->|N]; [eauto|]. eapply IH; [exact E|lia].
Qed.
Lemma flip_rows_reads h w v p1 p2 : forall n s d l l', flip_rows n h w v s d p1 p2 l = Ok l' ->
  forall y x, 0 <= y < Z.of_nat n -> 0 <= x < h -> exists c, znth v (s + y * w + x) = Some c.
Proof.
  induction n as [|n IH]; intros s d l l' E y x Y X; cbn [flip_rows] in E; [lia|]. apply bind_ok in E. destruct E as (l1 & E1 & E2).
  destruct (Z.eq_dec y 0) as [->|N].
  - replace (s + 0 * w + x) with (s + x) by lia. eapply flip_row_reads; [exact E1|lia].
  - replace (s + y * w + x) with (s + w + (y - 1) * w + x) by lia. eapply IH; [exact E2|lia|lia].
Qed.
Lemma flip_tall g l : framed g -> x_screen g = Some l -> x_width g < x_height g -> flip g = Stuck SOob.
Proof.
  intros (F1 & F2 & F3 & F4) E H. unfold flip. rewrite E. cbv zeta.
  destruct (flip_rows_oob (x_height g) (x_width g) (x_video g) (to_u32 (x_width g * 3)) (to_u32 (to_u32 (x_width g * 3) + to_u32 (x_width g * 3)))
    (Z.to_nat (x_height g)) 0 0 l) as [(l' & R)|R]; rewrite R; [exfalso|reflexivity].
  destruct (flip_rows_reads _ _ _ _ _ _ _ _ _ _ R (x_height g - 1) (x_width g)) as (c & C); [lia..|].
  apply znth_some in C. rewrite F3 in C. nia.
Qed.

(** ** Histories *)
Record ready (g : gfx) : Prop := {
  r_framed : framed g;
  r_wide : x_height g <= x_width g;
  r_width : 9 * x_width g <= i32_max;
  r_screen : forall l, x_screen g = Some l -> zlen l = 9 * (x_width g * x_height g)
}.
Lemma ready_paints f g g' : ready g -> paints f g g' -> ready g'.
Proof.
  intros [R1 R2 R3 R4] P. pose proof (paints_framed _ _ _ P R1) as F. destruct P as (A1 & A2 & A3 & A4 & A5 & A6 & A7).
  constructor; rewrite ?A4, ?A5, ?A2; auto.
Qed.
Lemma reads_ok v z : reads v z -> is_number v = true /\ as_int v = Ok z.
Proof. intros [->|(f & -> & E)]; split; try reflexivity. exact E. Qed.
Lemma number_reads v : is_number v = true -> (exists z, reads v z) \/ as_int v = Stuck SCast.
Proof.
  destruct v as [|s|]; try discriminate. destruct s; try discriminate; intros _.
  - left. eexists. left. reflexivity.
  - cbn [as_int]. assert (C : (exists z, f_to_int f = Ok z) \/ f_to_int f = Stuck SCast).
    { destruct f as [sg|sg| |sg m ex]; cbn [f_to_int]; eauto. destruct (in_i32 _); eauto. }
    destruct C as [(z & E)|E]; [left|right; exact E]. exists z. right. exists f. split; [reflexivity|exact E].
Qed.
Lemma in_arity name n f : In (name, n, Some f) sdl_arity ->
  n = match f with D_cls | D_flip => 0 | D_video | D_plot => 2 | D_setrgb | D_circle => 3 | D_line => 4 end.
Proof. intros H. unfold sdl_arity in H. repeat (destruct H as [H|H]; [inversion H; subst; reflexivity|]). destruct H. Qed.
Lemma zlen_split (l : list pv) : (zlen l = 0 -> l = []) /\ (zlen l = 2 -> exists a b, l = [a; b]) /\
  (zlen l = 3 -> exists a b c, l = [a; b; c]) /\ (zlen l = 4 -> exists a b c d, l = [a; b; c; d]).
Proof.
  destruct l as [|a [|b [|c [|d [|e l]]]]]; rewrite ?zlen_cons; change (zlen (@nil pv)) with 0; try (pose proof (zlen_nonneg l));
    (split; [intros H1|split; [intros H1|split; intros H1]]); try (exfalso; lia); repeat eexists.
Qed.
