(** Proofs about simp_qual. *)
From Coq Require Import List Reals Lra Psatz.
From Verif Require S_FixMesh.
From Verif Require Import M_Base M_Quality S_Quality.
Import ListNotations.
Open Scope R_scope.

Lemma rlength_dist p q : rlength (rsub p q) = dist2d p q.
Proof. reflexivity. Qed.
Lemma dist_sym p q : dist2d p q = dist2d q p.
Proof. unfold dist2d. f_equal. ring. Qed.
Lemma dist_nonneg p q : 0 <= dist2d p q.
Proof. apply sqrt_pos. Qed.
Lemma dist_sq p q : dist2d p q ^ 2 = (fst p - fst q) ^ 2 + (snd p - snd q) ^ 2.
Proof. unfold dist2d. rewrite pow2_sqrt; auto. pose proof (pow2_ge_0 (fst p - fst q)). pose proof (pow2_ge_0 (snd p - snd q)). lra. Qed.

(** Heron: (a+b+c)(b+c-a)(c+a-b)(a+b-c) = (2 area2)^2 *)
Lemma heron p0 p1 p2 : let a := dist2d p1 p0 in let b := dist2d p2 p0 in let c := dist2d p2 p1 in
  (a + b + c) * (b + c - a) * (c + a - b) * (a + b - c) = (2 * area2 p0 p1 p2) ^ 2.
Proof.
  intros a b c. pose proof (dist_sq p1 p0) as Ha. pose proof (dist_sq p2 p0) as Hb. pose proof (dist_sq p2 p1) as Hc. fold a in Ha. fold b in Hb. fold c in Hc.
  transitivity (2 * a ^ 2 * b ^ 2 + 2 * b ^ 2 * c ^ 2 + 2 * c ^ 2 * a ^ 2 - (a ^ 2) ^ 2 - (b ^ 2) ^ 2 - (c ^ 2) ^ 2); [ring|].
  rewrite Ha, Hb, Hc. unfold area2. ring.
Qed.
(** strict triangle inequalities for a triangle with area *)
Lemma tri_pos p0 p1 p2 : area2 p0 p1 p2 <> 0 -> let a := dist2d p1 p0 in let b := dist2d p2 p0 in let c := dist2d p2 p1 in
  0 < a /\ 0 < b /\ 0 < c /\ 0 < b + c - a /\ 0 < c + a - b /\ 0 < a + b - c.
Proof.
  intros H a b c. pose proof (heron p0 p1 p2) as Hh. cbv zeta in Hh. fold a b c in Hh.
  assert (P : 0 < (a + b + c) * (b + c - a) * (c + a - b) * (a + b - c)) by (rewrite Hh; nra).
  assert (Ha : 0 <= a) by apply dist_nonneg. assert (Hb : 0 <= b) by apply dist_nonneg. assert (Hc : 0 <= c) by apply dist_nonneg.
  assert (Ps : 0 < a + b + c). { destruct (Rle_lt_dec (a + b + c) 0); auto. assert (E : a + b + c = 0) by lra. rewrite E in P. lra. }
  assert (Q : 0 < (b + c - a) * (c + a - b) * (a + b - c)).
  { replace ((a + b + c) * (b + c - a) * (c + a - b) * (a + b - c)) with ((a + b + c) * ((b + c - a) * (c + a - b) * (a + b - c))) in P by ring.
    apply (Rmult_lt_reg_l (a + b + c)); auto. rewrite Rmult_0_r. auto. }
  set (x := b + c - a) in *. set (y := c + a - b) in *. set (z := a + b - c) in *.
  assert (Hx : 0 < x /\ 0 < y /\ 0 < z).
  { assert (x + y = 2 * c) by (unfold x, y; ring). assert (y + z = 2 * a) by (unfold y, z; ring). assert (x + z = 2 * b) by (unfold x, z; ring).
    destruct (Rlt_le_dec 0 x) as [Lx|Lx].
    - destruct (Rlt_le_dec 0 y) as [Ly|Ly].
      + repeat split; auto. destruct (Rlt_le_dec 0 z); auto. exfalso. assert (0 < x * y) by nra. nra.
      + exfalso. assert (0 <= z) by lra. assert (x * y <= 0) by nra. nra.
    - exfalso. assert (0 <= y) by lra. assert (0 <= z) by lra. assert (0 <= y * z) by nra. nra. }
  destruct Hx as (H1 & H2 & H3). repeat split; auto; unfold x, y, z in *; lra.
Qed.
Lemma qual_formula a b c : 0 < a -> 0 < b -> 0 < c -> 0 < b + c - a -> 0 < c + a - b -> 0 < a + b - c ->
  qual_of_lengths a b c = (b + c - a) * (c + a - b) * (a + b - c) / (a * b * c) * sqrt ((b + c - a) * (c + a - b) * (a + b - c) / (a + b + c)).
Proof.
  intros Ha Hb Hc Hx Hy Hz. unfold qual_of_lengths. set (s := a + b + c). set (P := (b + c - a) * (c + a - b) * (a + b - c)).
  assert (Hs : 0 < s) by (unfold s; lra). assert (HP : 0 < P) by (unfold P; apply Rmult_lt_0_compat; auto; apply Rmult_lt_0_compat; auto).
  replace (s * (b + c - a) * (c + a - b) * (a + b - c)) with (s ^ 2 * (P / s)) by (unfold P; field; lra).
  assert (HPs : 0 < P / s) by (apply Rdiv_lt_0_compat; auto).
  rewrite sqrt_mult by (nra || lra). rewrite sqrt_pow2 by lra. set (q := sqrt (P / s)). assert (Hq : 0 < q) by (apply sqrt_lt_R0; auto).
  field. repeat split; lra.
Qed.
Definition shape (a b c : R) : R := (b + c - a) * (c + a - b) * (a + b - c) / (a * b * c).
Lemma shape_le1 a b c : 0 < a -> 0 < b -> 0 < c -> 0 < b + c - a -> 0 < c + a - b -> 0 < a + b - c ->
  0 < shape a b c <= 1 /\ (shape a b c = 1 <-> a = b /\ b = c).
Proof.
  intros Ha Hb Hc Hx Hy Hz. unfold shape. assert (Habc : 0 < a * b * c) by (apply Rmult_lt_0_compat; auto; apply Rmult_lt_0_compat; auto).
  assert (HP : 0 < (b + c - a) * (c + a - b) * (a + b - c)) by (apply Rmult_lt_0_compat; auto; apply Rmult_lt_0_compat; auto).
  set (x := b + c - a) in *. set (y := c + a - b) in *. set (z := a + b - c) in *.
  assert (Ea : a = (y + z) / 2) by (unfold y, z; field). assert (Eb : b = (x + z) / 2) by (unfold x, z; field). assert (Ec : c = (x + y) / 2) by (unfold x, y; field).
  assert (D : a * b * c - x * y * z = (x * (y - z) ^ 2 + y * (x - z) ^ 2 + z * (x - y) ^ 2) / 8) by (rewrite Ea, Eb, Ec; field).
  assert (N1 : 0 <= x * (y - z) ^ 2) by (apply Rmult_le_pos; [lra|apply pow2_ge_0]). assert (N2 : 0 <= y * (x - z) ^ 2) by (apply Rmult_le_pos; [lra|apply pow2_ge_0]).
  assert (N3 : 0 <= z * (x - y) ^ 2) by (apply Rmult_le_pos; [lra|apply pow2_ge_0]).
  split; [split|split].
  - apply Rdiv_lt_0_compat; auto.
  - apply (Rmult_le_reg_r (a * b * c)); auto. replace (x * y * z / (a * b * c) * (a * b * c)) with (x * y * z) by (field; repeat split; lra). lra.
  - intros E. assert (x * y * z = a * b * c) by (apply (Rmult_eq_reg_r (/ (a * b * c))); [rewrite Rinv_r by lra; exact E|apply Rinv_neq_0_compat; lra]).
    assert (Z1 : x * (y - z) ^ 2 = 0) by lra. assert (Z2 : y * (x - z) ^ 2 = 0) by lra.
    apply Rmult_integral in Z1. apply Rmult_integral in Z2. destruct Z1 as [Z1|Z1]; [lra|]. destruct Z2 as [Z2|Z2]; [lra|].
    assert (y - z = 0) by nra. assert (x - z = 0) by nra. rewrite Ea, Eb, Ec. split; nra.
  - intros [-> ->]. unfold x, y, z. field. lra.
Qed.
(** the code's value and the documented one *)
Lemma tri_qual_is p0 p1 p2 r rr : area2 p0 p1 p2 <> 0 -> inradius_is p0 p1 p2 r -> circumradius_is p0 p1 p2 rr ->
  tri_qual p0 p1 p2 = (2 * r) * (2 * r / rr) /\ 0 < r /\ 0 < rr.
Proof.
  intros HA Hr HR. unfold tri_qual. rewrite !rlength_dist. pose proof (tri_pos p0 p1 p2 HA) as (Ha & Hb & Hc & Hx & Hy & Hz).
  pose proof (heron p0 p1 p2) as Hh. cbv zeta in Hh.
  unfold inradius_is in Hr. unfold circumradius_is in HR. rewrite (dist_sym p0 p1), (dist_sym p1 p2) in Hr, HR.
  set (a := dist2d p1 p0) in *. set (b := dist2d p2 p0) in *. set (c := dist2d p2 p1) in *. set (A := Rabs (area2 p0 p1 p2)) in *.
  assert (HA0 : 0 < A) by (apply Rabs_pos_lt; auto). assert (EA : area2 p0 p1 p2 ^ 2 = A ^ 2) by (unfold A; now rewrite pow2_abs).
  set (s := a + b + c) in *. set (P := (b + c - a) * (c + a - b) * (a + b - c)) in *.
  assert (Hs : 0 < s) by (unfold s; lra). assert (HP : 0 < P) by (unfold P; apply Rmult_lt_0_compat; auto; apply Rmult_lt_0_compat; auto).
  assert (EP : s * P = 4 * A ^ 2). { transitivity ((2 * area2 p0 p1 p2) ^ 2); [rewrite <- Hh; unfold P; ring|]. rewrite <- EA. ring. }
  assert (Er : r = A / s). { assert (A / 2 = r * (s / 2)) as K by (rewrite Hr; unfold s; f_equal; f_equal; ring). field_simplify_eq; [|lra]. lra. }
  assert (Habc : 0 < a * b * c) by (apply Rmult_lt_0_compat; auto; apply Rmult_lt_0_compat; auto).
  assert (Err : rr = a * b * c / (2 * A)). { field_simplify_eq; [|lra]. nra. }
  assert (Hr0 : 0 < r) by (rewrite Er; apply Rdiv_lt_0_compat; auto). assert (Hrr0 : 0 < rr) by (rewrite Err; apply Rdiv_lt_0_compat; lra).
  split; [|auto]. rewrite qual_formula by auto. fold s. fold P.
  assert (EP' : P = 4 * A ^ 2 / s) by (field_simplify_eq; lra).
  assert (Es : sqrt (P / s) = 2 * r). { rewrite Er, EP'. replace (4 * A ^ 2 / s / s) with ((2 * (A / s)) ^ 2) by (field; lra). rewrite sqrt_pow2; auto. assert (0 < A / s) by (apply Rdiv_lt_0_compat; auto). lra. }
  rewrite Es. rewrite Er, Err, EP'. field. repeat split; lra.
Qed.
Lemma euler p0 p1 p2 r rr : area2 p0 p1 p2 <> 0 -> inradius_is p0 p1 p2 r -> circumradius_is p0 p1 p2 rr ->
  0 < 2 * r / rr <= 1 /\ (2 * r / rr = 1 <-> exists s, equilateral p0 p1 p2 s).
Proof.
  intros HA Hr HR. pose proof (tri_pos p0 p1 p2 HA) as (Ha & Hb & Hc & Hx & Hy & Hz). pose proof (heron p0 p1 p2) as Hh. cbv zeta in Hh.
  unfold inradius_is in Hr. unfold circumradius_is in HR. rewrite (dist_sym p0 p1), (dist_sym p1 p2) in Hr, HR. unfold equilateral. rewrite (dist_sym p0 p1), (dist_sym p1 p2).
  set (a := dist2d p1 p0) in *. set (b := dist2d p2 p0) in *. set (c := dist2d p2 p1) in *. set (A := Rabs (area2 p0 p1 p2)) in *.
  assert (HA0 : 0 < A) by (apply Rabs_pos_lt; auto). assert (EA : area2 p0 p1 p2 ^ 2 = A ^ 2) by (unfold A; now rewrite pow2_abs).
  set (s := a + b + c) in *. set (P := (b + c - a) * (c + a - b) * (a + b - c)) in *.
  assert (Hs : 0 < s) by (unfold s; lra).
  assert (EP : s * P = 4 * A ^ 2). { transitivity ((2 * area2 p0 p1 p2) ^ 2); [rewrite <- Hh; unfold P; ring|]. rewrite <- EA. ring. }
  assert (Er : r = A / s). { assert (A / 2 = r * (s / 2)) as K by (rewrite Hr; unfold s; f_equal; f_equal; ring). field_simplify_eq; [|lra]. lra. }
  assert (Habc : 0 < a * b * c) by (apply Rmult_lt_0_compat; auto; apply Rmult_lt_0_compat; auto).
  assert (Err : rr = a * b * c / (2 * A)). { field_simplify_eq; [|lra]. nra. }
  assert (EP' : P = 4 * A ^ 2 / s) by (field_simplify_eq; lra).
  assert (E : 2 * r / rr = shape a b c). { unfold shape. fold P. rewrite Er, Err, EP'. field. repeat split; lra. }
  rewrite E. destruct (shape_le1 a b c Ha Hb Hc Hx Hy Hz) as [S1 S2]. split; auto. rewrite S2. split; [intros [E1 E2]; exists a; repeat split; congruence|intros (t & E1 & E2 & E3); split; congruence].
Qed.
Lemma radii_exist p0 p1 p2 : area2 p0 p1 p2 <> 0 -> exists r rr, inradius_is p0 p1 p2 r /\ circumradius_is p0 p1 p2 rr.
Proof.
  intros HA. pose proof (tri_pos p0 p1 p2 HA) as (Ha & Hb & Hc & _). assert (HA0 : 0 < Rabs (area2 p0 p1 p2)) by (apply Rabs_pos_lt; auto).
  exists (Rabs (area2 p0 p1 p2) / perimeter p0 p1 p2), (dist2d p0 p1 * dist2d p1 p2 * dist2d p2 p0 / (2 * Rabs (area2 p0 p1 p2))).
  unfold inradius_is, circumradius_is, perimeter. rewrite (dist_sym p0 p1), (dist_sym p1 p2). split; field; lra.
Qed.
Lemma dist_scale k p q : 0 < k -> dist2d (scale k p) (scale k q) = k * dist2d p q.
Proof.
  intros Hk. unfold dist2d, scale. cbn [fst snd]. replace ((k * fst p - k * fst q) ^ 2 + (k * snd p - k * snd q) ^ 2) with (k ^ 2 * ((fst p - fst q) ^ 2 + (snd p - snd q) ^ 2)) by ring.
  pose proof (pow2_ge_0 (fst p - fst q)). pose proof (pow2_ge_0 (snd p - snd q)). pose proof (pow2_ge_0 k).
  rewrite sqrt_mult by lra. rewrite sqrt_pow2 by lra. reflexivity.
Qed.
Lemma area_scale k p0 p1 p2 : area2 (scale k p0) (scale k p1) (scale k p2) = k ^ 2 * area2 p0 p1 p2.
Proof. unfold area2, scale. cbn [fst snd]. ring. Qed.
Lemma qual_scales p0 p1 p2 k : area2 p0 p1 p2 <> 0 -> 0 < k -> tri_qual (scale k p0) (scale k p1) (scale k p2) = k * tri_qual p0 p1 p2.
Proof.
  intros HA Hk. unfold tri_qual. rewrite !rlength_dist, !dist_scale by auto.
  pose proof (tri_pos p0 p1 p2 HA) as (Ha & Hb & Hc & Hx & Hy & Hz). set (a := dist2d p1 p0) in *. set (b := dist2d p2 p0) in *. set (c := dist2d p2 p1) in *.
  assert (M : forall x, 0 < x -> 0 < k * x) by (intros; now apply Rmult_lt_0_compat).
  assert (E1 : k * b + k * c - k * a = k * (b + c - a)) by ring. assert (E2 : k * c + k * a - k * b = k * (c + a - b)) by ring. assert (E3 : k * a + k * b - k * c = k * (a + b - c)) by ring.
  rewrite !qual_formula; rewrite ?E1, ?E2, ?E3; auto.
  set (x := b + c - a) in *. set (y := c + a - b) in *. set (z := a + b - c) in *.
  replace (k * x * (k * y) * (k * z) / (k * a + k * b + k * c)) with (k ^ 2 * (x * y * z / (a + b + c)))
    by (replace (k * a + k * b + k * c) with (k * (a + b + c)) by ring; field; split; lra).
  assert (0 < x * y * z) by (apply Rmult_lt_0_compat; auto; apply Rmult_lt_0_compat; auto).
  assert (0 < x * y * z / (a + b + c)) by (apply Rdiv_lt_0_compat; lra).
  rewrite sqrt_mult by (nra || lra). rewrite sqrt_pow2 by lra. field. repeat split; lra.
Qed.
Lemma qual_equilateral p0 p1 p2 s : 0 < s -> equilateral p0 p1 p2 s -> tri_qual p0 p1 p2 = s / sqrt 3.
Proof.
  intros Hs (E1 & E2 & E3). unfold tri_qual. rewrite !rlength_dist. rewrite (dist_sym p1 p0), (dist_sym p2 p1), E1, E2, E3. rewrite qual_formula by lra.
  replace ((s + s - s) * (s + s - s) * (s + s - s) / (s + s + s)) with (s ^ 2 / 3) by (field; lra).
  assert (0 < sqrt 3) by (apply sqrt_lt_R0; lra). rewrite sqrt_div by nra. rewrite sqrt_pow2 by lra. field. split; lra.
Qed.
Lemma qual_345 : tri_qual (0, 0) (3, 0) (0, 4) = 8 / 5.
Proof.
  unfold tri_qual. rewrite !rlength_dist.
  assert (D1 : dist2d (3, 0) (0, 0) = 3) by (unfold dist2d; cbn [fst snd]; replace ((3 - 0) ^ 2 + (0 - 0) ^ 2) with (3 ^ 2) by ring; apply sqrt_pow2; lra).
  assert (D2 : dist2d (0, 4) (0, 0) = 4) by (unfold dist2d; cbn [fst snd]; replace ((0 - 0) ^ 2 + (4 - 0) ^ 2) with (4 ^ 2) by ring; apply sqrt_pow2; lra).
  assert (D3 : dist2d (0, 4) (3, 0) = 5) by (unfold dist2d; cbn [fst snd]; replace ((0 - 3) ^ 2 + (4 - 0) ^ 2) with (5 ^ 2) by ring; apply sqrt_pow2; lra).
  rewrite D1, D2, D3. rewrite qual_formula by lra. replace ((4 + 5 - 3) * (5 + 3 - 4) * (3 + 4 - 5) / (3 + 4 + 5)) with (2 ^ 2) by field. rewrite sqrt_pow2 by lra. field.
Qed.
Lemma amgm x y z : 0 < x -> 0 < y -> 0 < z -> x * y * z <= (x + y + z) ^ 3 / 27.
Proof.
  intros Hx Hy Hz. assert (N1 : 0 <= x * (y - z) ^ 2) by (apply Rmult_le_pos; [lra|apply pow2_ge_0]). assert (N2 : 0 <= y * (x - z) ^ 2) by (apply Rmult_le_pos; [lra|apply pow2_ge_0]).
  assert (N3 : 0 <= z * (x - y) ^ 2) by (apply Rmult_le_pos; [lra|apply pow2_ge_0]).
  assert (N4 : 0 <= (x + y + z) * ((x - y) ^ 2 + (y - z) ^ 2 + (x - z) ^ 2)).
  { apply Rmult_le_pos; [lra|]. pose proof (pow2_ge_0 (x - y)). pose proof (pow2_ge_0 (y - z)). pose proof (pow2_ge_0 (x - z)). lra. }
  nra.
Qed.
Lemma qual_small p0 p1 p2 : area2 p0 p1 p2 <> 0 -> 0 < tri_qual p0 p1 p2 <= perimeter p0 p1 p2 / (3 * sqrt 3).
Proof.
  intros HA. unfold tri_qual, perimeter. rewrite !rlength_dist. pose proof (tri_pos p0 p1 p2 HA) as (Ha & Hb & Hc & Hx & Hy & Hz).
  rewrite (dist_sym p0 p1), (dist_sym p1 p2). set (a := dist2d p1 p0) in *. set (b := dist2d p2 p0) in *. set (c := dist2d p2 p1) in *.
  rewrite qual_formula by auto. fold (shape a b c). destruct (shape_le1 a b c Ha Hb Hc Hx Hy Hz) as [[S0 S1] _].
  set (x := b + c - a) in *. set (y := c + a - b) in *. set (z := a + b - c) in *. assert (Es : a + b + c = x + y + z) by (unfold x, y, z; ring).
  assert (HP : 0 < x * y * z) by (apply Rmult_lt_0_compat; auto; apply Rmult_lt_0_compat; auto). assert (Hs : 0 < x + y + z) by lra.
  assert (H3 : 0 < sqrt 3) by (apply sqrt_lt_R0; lra). assert (Q3 : sqrt 3 * sqrt 3 = 3) by (apply sqrt_def; lra).
  assert (Hq : sqrt (x * y * z / (a + b + c)) <= (x + y + z) / (3 * sqrt 3)).
  { rewrite Es. assert (0 < (x + y + z) / (3 * sqrt 3)) by (apply Rdiv_lt_0_compat; lra).
    rewrite <- (sqrt_pow2 ((x + y + z) / (3 * sqrt 3))) by lra. apply sqrt_le_1_alt.
    replace (((x + y + z) / (3 * sqrt 3)) ^ 2) with ((x + y + z) ^ 2 / (9 * (sqrt 3 * sqrt 3))) by (field; lra). rewrite Q3.
    apply (Rmult_le_reg_r (x + y + z)); auto. replace (x * y * z / (x + y + z) * (x + y + z)) with (x * y * z) by (field; lra).
    pose proof (amgm x y z Hx Hy Hz). lra. }
  assert (Hq0 : 0 < sqrt (x * y * z / (a + b + c))) by (apply sqrt_lt_R0; apply Rdiv_lt_0_compat; lra).
  split; [apply Rmult_lt_0_compat; auto|]. replace (a + c + b) with (x + y + z) by (unfold x, y, z; ring).
  apply Rle_trans with (1 * sqrt (x * y * z / (a + b + c))); [apply Rmult_le_compat_r; lra|lra].
Qed.
Lemma qual_flip p0 p1 p2 : tri_qual p0 p2 p1 = tri_qual p0 p1 p2.
Proof.
  unfold tri_qual. rewrite !rlength_dist. rewrite (dist_sym p1 p2). set (a := dist2d p1 p0). set (b := dist2d p2 p0). set (c := dist2d p2 p1).
  unfold qual_of_lengths. replace ((b + a + c) * (a + c - b) * (c + b - a) * (b + a - c)) with ((a + b + c) * (b + c - a) * (c + a - b) * (a + b - c)) by ring.
  f_equal; [|f_equal; ring]. unfold Rdiv. replace (b + a + c) with (a + b + c) by ring. ring.
Qed.

(** All rows. *)
Lemma simp_qual_rows p t : Forall (fun f => S_FixMesh.in_range (length p) f) t ->
  exists qs, simp_qual p t = Ok qs /\ Forall2 (fun f q => let '(i, j, k) := f in
    forall p0 p1 p2 r rr, nth_error p i = Some p0 -> nth_error p j = Some p1 -> nth_error p k = Some p2 ->
      area2 p0 p1 p2 <> 0 -> inradius_is p0 p1 p2 r -> circumradius_is p0 p1 p2 rr -> q = (2 * r) * (2 * r / rr)) t qs.
Proof.
  induction t as [|[[i j] k] t IH]; intros H; [exists []; split; [reflexivity|constructor]|].
  inversion H as [|? ? H1 H2]; subst. destruct (IH H2) as (qs & E & HF).
  inversion H1 as [|? ? A1 H3]; subst. inversion H3 as [|? ? A2 H4]; subst. inversion H4 as [|? ? A3 _]; subst.
  assert (G : forall x, (x < length p)%nat -> exists y, nth_error p x = Some y).
  { intros x Hx. destruct (nth_error p x) eqn:Ex; [eauto|]. apply nth_error_None in Ex. exfalso. revert Hx. apply Nat.le_ngt. exact Ex. }
  destruct (G _ A1) as (p0 & E0), (G _ A2) as (p1 & E1), (G _ A3) as (p2 & E2).
  exists (tri_qual p0 p1 p2 :: qs). split.
  - unfold simp_qual in *. cbn [mapM]. unfold get at 1 2 3. rewrite E0, E1, E2. cbn [bind]. rewrite E. reflexivity.
  - constructor; auto. intros q0 q1 q2 r rr F0 F1 F2 Ha Hr Hrr.
    rewrite E0 in F0. rewrite E1 in F1. rewrite E2 in F2. injection F0 as <-. injection F1 as <-. injection F2 as <-.
    now apply tri_qual_is.
Qed.
Lemma simp_qual_index p t : simp_qual p t = Raise IndexError <-> ~ Forall (fun f => S_FixMesh.in_range (length p) f) t.
Proof.
  split.
  - intros E H. destruct (simp_qual_rows p t H) as (qs & E2 & _). congruence.
  - induction t as [|[[i j] k] t IH]; intros H; [exfalso; apply H; constructor|].
    unfold simp_qual in *. cbn [mapM]. unfold get at 1 2 3.
    destruct (nth_error p i) eqn:E0; [|reflexivity]. destruct (nth_error p j) eqn:E1; [|reflexivity]. destruct (nth_error p k) eqn:E2; [|reflexivity].
    cbn [bind]. rewrite IH; [reflexivity|]. intros HF. apply H. constructor; auto.
    assert (G : forall x y, nth_error p x = Some y -> (x < length p)%nat) by (intros x y Ex; apply nth_error_Some; congruence).
    unfold S_FixMesh.in_range, S_FixMesh.corners. repeat constructor; eauto.
Qed.
