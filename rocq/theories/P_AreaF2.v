(** Cases of areas of rings of doubles, and rings in degrees. *)
From Coq Require Import List Arith Bool ZArith Lia Reals Lra SpecFloat.
From Flocq Require Import Core IEEE754.BinarySingleNaN.
From Verif Require Import Util M_Base M_FixMesh M_QualF M_ForceF M_Shore M_AreaF S_Double S_Ieee S_AreaF P_Double P_Ieee3 P_ProjF P_OrientF P_AreaF.
Import ListNotations.
Open Scope R_scope.

Lemma around_le f B : forall l z, (forall p q, (p = z \/ In p l) -> (q = z \/ In q l) -> f p q <= B) -> around f z l <= INR (length l) * B.
Proof.
  induction l as [|p l IH]; intros z H; [cbn; lra|]. cbn [around length]. rewrite S_INR. assert (H1 : f p z <= B) by (apply H; [right; left; reflexivity|left; reflexivity]). assert (H2 : around f p l <= INR (length l) * B) by (apply IH; intros a b [->|A] [->|C]; apply H; cbn; auto). lra.
Qed.
Lemma last_in {A} (l : list A) d : l <> [] -> In (last l d) l. Proof. intros N. destruct (exists_last N) as (r & x & ->). rewrite last_last. apply in_or_app. right. left. reflexivity. Qed.
Theorem degrees_error l : l <> [] -> INR (length l) <= 1000 -> Forall (fun p => Rabs (val (fst p)) <= 180 /\ Rabs (val (snd p)) <= 90) l -> area_error l <= 4 / 10 ^ 6.
Proof.
  intros N L D. rewrite Forall_forall in D. assert (S : ring_size l <= INR (length l) * 32400).
  { unfold ring_size, ring_sum. apply around_le. intros p q P Q. assert (IP : In p l) by (destruct P as [->|P]; [apply last_in, N|exact P]). assert (IQ : In q l) by (destruct Q as [->|Q]; [apply last_in, N|exact Q]). destruct (D p IP) as [P1 P2]. destruct (D q IQ) as [Q1 Q2]. pose proof (mul_le _ _ _ _ P1 Q2). pose proof (mul_le _ _ _ _ P2 Q1). lra. }
  unfold area_error. pose proof (pos_INR (length l)) as N0. assert (U : u = / 9007199254740992) by exact u_val. assert (B : (INR (length l) + 2) * u * ring_size l <= (1000 + 2) * u * (1000 * 32400)).
  { apply Rle_trans with ((INR (length l) + 2) * u * (1000 * 32400)); [apply Rmult_le_compat_l; [rewrite U; lra|lra]|]. apply Rmult_le_compat_r; [lra|]. apply Rmult_le_compat_r; [rewrite U; lra|lra]. }
  rewrite U in B. assert (T : / 2 ^ 1000 <= / 2 ^ 40) by (apply ipow_up; lia). replace (2 ^ 40) with 1099511627776 in T by (cbn; lra). replace (10 ^ 6) with 1000000 by (cbn; lra). rewrite U. lra.
Qed.

(** * Rings whose area is lost *)
Definition a1 : spec_float := S754_finite false 4503599627370496 (-45).
Definition a2 : spec_float := S754_finite false 4503599629467648 (-45).
Definition b1 : spec_float := S754_finite false 4503599627370496 (-47).
Definition b2 : spec_float := S754_finite false 4503599635759104 (-47).
Definition square : list (spec_float * spec_float) := [(a1, b1); (a2, b1); (a2, b2); (a1, b2); (a1, b1)].
Definition min50 : spec_float := S754_finite false 4503599627370496 (-102).
Definition c1 : spec_float := S754_finite false 5981343255101504 (-45).
Definition c2 : spec_float := S754_finite false 5981343255101696 (-45).
Definition c3 : spec_float := S754_finite false 5981343255101472 (-45).
Definition d1 : spec_float := S754_finite false 6333186975990400 (-47).
Definition d3 : spec_float := S754_finite false 6333186975990656 (-47).
Definition speck : list (spec_float * spec_float) := [(c1, d1); (c2, d1); (c3, d3); (c1, d1)].
Definition min40 : spec_float := S754_finite false 4503599627370496 (-92).
Lemma square_vals : val a1 = 128 /\ val a2 = 128 + / 16777216 /\ val b1 = 32 /\ val b2 = 32 + / 16777216 /\ val min50 = / 1125899906842624.
Proof. unfold val, a1, a2, b1, b2, min50, SF2R, F2R. cbn. lra. Qed.
Lemma speck_vals : val c1 = 170 + 2 / 1099511627776 /\ val c2 = 170 + 8 / 1099511627776 /\ val c3 = 170 + 1 / 1099511627776 /\ val d1 = 45 + 5 / 1099511627776 /\ val d3 = 45 + 7 / 1099511627776 /\ val min40 = / 1099511627776.
Proof. unfold val, c1, c2, c3, d1, d3, min40, SF2R, F2R. cbn. lra. Qed.
Lemma small_moderate p x y : finite_point p -> val (fst p) = x -> val (snd p) = y -> 0 <= x <= 200 -> 0 <= y <= 200 -> moderate_point p.
Proof. intros F <- <- X Y. assert (P : 200 <= 2 ^ 400) by (apply Rle_trans with (2 ^ 20); [lra|apply pow_up; lia]). split; [exact F|]. rewrite !Rabs_pos_eq by lra. lra. Qed.
Theorem square_dropped : Forall moderate_point square /\ finite_double min50 /\ ring_area square = 4 * val min50 /\ large_enough_f dot_seq min50 square = false.
Proof.
  destruct square_vals as (V1 & V2 & V3 & V4 & V5). split; [|split; [split; reflexivity|split; [|vm_compute; reflexivity]]].
  - repeat apply Forall_cons; try apply Forall_nil; (eapply small_moderate; [split; split; reflexivity|cbn [fst snd]; eassumption|cbn [fst snd]; eassumption|lra|lra]).
  - unfold ring_area, ring_sum, square. cbn [last around fst snd]. rewrite V1, V2, V3, V4, V5. rewrite Rabs_left by lra. lra.
Qed.
Theorem speck_kept : Forall moderate_point speck /\ finite_double min40 /\ 1000000000 * ring_area speck < val min40 /\ large_enough_f dot_seq min40 speck = true.
Proof.
  destruct speck_vals as (V1 & V2 & V3 & V4 & V5 & V6). split; [|split; [split; reflexivity|split; [|vm_compute; reflexivity]]].
  - repeat apply Forall_cons; try apply Forall_nil; (eapply small_moderate; [split; split; reflexivity|cbn [fst snd]; eassumption|cbn [fst snd]; eassumption|lra|lra]).
  - unfold ring_area, ring_sum, speck. cbn [last around fst snd]. rewrite V1, V2, V3, V4, V5, V6. rewrite Rabs_left by lra. lra.
Qed.
(** A square of a quarter of a degree. *)
Definition e1 : spec_float := S754_finite false 4512395720392704 (-45).
Definition e2 : spec_float := S754_finite false 4538783999459328 (-47).
Definition block : list (spec_float * spec_float) := [(a1, b1); (e1, b1); (e1, e2); (a1, e2); (a1, b1)].
Definition area_0_004 : spec_float := S754_finite false 4611686018427388 (-60).
Theorem block_case : Forall moderate_point block /\ finite_double area_0_004 /\ val area_0_004 + area_error block <= ring_area block /\ block <> [] /\ INR (length block) <= 1000.
Proof.
  assert (V : val a1 = 128 /\ val b1 = 32 /\ val e1 = 128 + / 4 /\ val e2 = 32 + / 4 /\ 0 <= val area_0_004 <= / 200) by (unfold val, a1, b1, e1, e2, area_0_004, SF2R, F2R; cbn; lra). destruct V as (V1 & V2 & V3 & V4 & V5).
  assert (A : ring_area block = / 16) by (unfold ring_area, ring_sum, block; cbn [last around fst snd]; rewrite V1, V2, V3, V4, Rabs_left by lra; lra). assert (N : block <> []) by discriminate. assert (L : INR (length block) <= 1000) by (cbn; lra).
  assert (D : area_error block <= 4 / 10 ^ 6). { apply degrees_error; [exact N|exact L|]. repeat apply Forall_cons; try apply Forall_nil; cbn [fst snd]; rewrite ?V1, ?V2, ?V3, ?V4, !Rabs_pos_eq by lra; lra. }
  replace (10 ^ 6) with 1000000 in D by (cbn; lra). split; [|split; [split; reflexivity|split; [rewrite A; lra|split; assumption]]].
  repeat apply Forall_cons; try apply Forall_nil; (eapply small_moderate; [split; split; reflexivity|cbn [fst snd]; eassumption|cbn [fst snd]; eassumption|lra|lra]).
Qed.
