From Coq Require Import List Arith ZArith Reals Lra Lia SpecFloat QArith Psatz.
From Flocq Require Import Core IEEE754.BinarySingleNaN Plus_error Relative Mult_error.
From Verif Require Import M_Base M_Numpy M_Edges M_FixMesh S_FixMesh M_Ieee S_Double S_Ieee P_Double P_Ieee P_Ieee2 P_Ieee3 P_FixMesh.
Import ListNotations.

(** * A triangle whose computed sign is wrong in every order of its vertices. *)
Definition w0 : fpoint := (S754_finite false 5404319552844595 (-53), S754_finite false 5742089524897382 (-50)).
Definition w1 : fpoint := (S754_finite false 4728779608739020 (-50), S754_finite true 5404319552844592 (-54)).
Definition w2 : fpoint := (S754_finite false 5742089524897382 (-49), S754_finite true 5235434566818202 (-49)).
Definition wpts := [w0; w1; w2].

Definition perms3 : list (list nat * list nat) :=
  [([0;1;2],[0;1;2]); ([0;2;1],[0;2;1]); ([1;0;2],[1;0;2]); ([1;2;0],[2;0;1]); ([2;0;1],[1;2;0]); ([2;1;0],[2;1;0])]%nat.
Lemma unique3 (kleb : Z * Z -> Z * Z -> bool) k0 k1 k2 : total_order kleb -> key_eqb k0 k1 = false -> key_eqb k0 k2 = false -> key_eqb k1 k2 = false ->
  exists u ij, unique_full kleb key_eqb [k0; k1; k2] = (u, fst ij, snd ij) /\ In ij perms3.
Proof.
  intros (T & Tr & As) N01 N02 N12.
  assert (R : forall k, key_eqb k k = true) by (intros; apply key_eqb_eq; auto).
  assert (N : forall a b, key_eqb a b = false -> key_eqb b a = false).
  { intros a b H. destruct (key_eqb b a) eqn:E; auto. apply key_eqb_eq in E. subst. now rewrite R in H. }
  pose proof (N _ _ N01) as N10. pose proof (N _ _ N02) as N20. pose proof (N _ _ N12) as N21.
  pose proof (T k0 k1) as T01. pose proof (T k0 k2) as T02. pose proof (T k1 k2) as T12.
  assert (D : forall a b, key_eqb a b = false -> kleb a b = true -> kleb b a = true -> False).
  { intros a b H1 H2 H3. rewrite (As _ _ H2 H3), R in H1. discriminate. }
  pose proof (R k0) as R0. pose proof (R k1) as R1. pose proof (R k2) as R2.
  pose proof (D _ _ N01) as D01. pose proof (D _ _ N02) as D02. pose proof (D _ _ N12) as D12.
  pose proof (Tr k0 k1 k2) as R012. pose proof (Tr k2 k1 k0) as R210.
  pose proof (Tr k0 k2 k1) as R021. pose proof (Tr k1 k2 k0) as R120.
  pose proof (Tr k1 k0 k2) as R102. pose proof (Tr k2 k0 k1) as R201.
  clear T Tr As R N D.
  unfold unique_full, unique, unique_counts. cbn [isort insert fold_right]. 
  destruct (kleb k0 k1) eqn:E01; destruct (kleb k1 k0) eqn:E10; try (exfalso; now auto); try (exfalso; now destruct T01);
  destruct (kleb k0 k2) eqn:E02; destruct (kleb k2 k0) eqn:E20; try (exfalso; now auto); try (exfalso; now destruct T02);
  destruct (kleb k1 k2) eqn:E12; destruct (kleb k2 k1) eqn:E21; try (exfalso; now auto); try (exfalso; now destruct T12);
  try (exfalso; now (specialize (R012 eq_refl eq_refl); discriminate));
  try (exfalso; now (specialize (R210 eq_refl eq_refl); discriminate));
  try (exfalso; now (specialize (R021 eq_refl eq_refl); discriminate));
  try (exfalso; now (specialize (R120 eq_refl eq_refl); discriminate));
  try (exfalso; now (specialize (R102 eq_refl eq_refl); discriminate));
  try (exfalso; now (specialize (R201 eq_refl eq_refl); discriminate)).
  all: repeat (progress (cbn [isort insert runs map index_of fst]; rewrite ?E01, ?E10, ?E02, ?E20, ?E12, ?E21, ?N01, ?N10, ?N02, ?N20, ?N12, ?N21, ?R0, ?R1, ?R2)).
  all: match goal with |- exists u ij, (?a, ?b, ?c) = _ /\ _ => exists a, (b, c); split; [reflexivity|unfold perms3; simpl; tauto] end.
Qed.

Lemma fix_mesh_f_negative kleb du : total_order kleb ->
  exists p' a b c jx, fix_mesh_f kleb f2em13 wpts [(0, 1, 2)%nat] du = Ok (p', [(a, b, c)], jx) /\
    (Qarea2 (nth a p' (S754_nan, S754_nan)) (nth b p' (S754_nan, S754_nan)) (nth c p' (S754_nan, S754_nan)) < 0)%Q.
Proof.
  intros T.
  assert (H : exists k0 k1 k2, map (fsnap_row f2em13 wpts) wpts = [k0; k1; k2] /\ key_eqb k0 k1 = false /\ key_eqb k0 k2 = false /\ key_eqb k1 k2 = false).
  { eexists. eexists. eexists. split; [vm_compute; reflexivity|]. vm_compute. auto. }
  destruct H as (k0 & k1 & k2 & E & N01 & N02 & N12).
  destruct (unique3 kleb k0 k1 k2 T N01 N02 N12) as (u & ij & Eu & Hin).
  unfold fix_mesh_f, fix_mesh_gen. change (match wpts with [] => _ | _ => ?x end) with x. rewrite E, Eu. clear E Eu T N01 N02 N12.
  unfold perms3 in Hin. cbn [In] in Hin.
  repeat (destruct Hin as [<-|Hin]; [destruct du; (do 5 eexists; split; [vm_compute; reflexivity|vm_compute; reflexivity])|]). destruct Hin.
Qed.

(** * Rounding to integers *)
Open Scope R_scope.
Lemma sign_B (b : bin) : sign_SF (B2SF b) = Bsign b.
Proof. destruct b; reflexivity. Qed.
Lemma norm_int z s : (Z.abs z <= 2 ^ 53)%Z -> finite_double (SpecFloat.binary_normalize fprec femax z 0 s) /\ val (SpecFloat.binary_normalize fprec femax z 0 s) = IZR z /\
  (z <> 0%Z -> sign_SF (SpecFloat.binary_normalize fprec femax z 0 s) = (z <? 0)%Z).
Proof.
  intros H. change fprec with 53%Z. change femax with 1024%Z. rewrite normalize_equiv.
  pose proof (binary_normalize_correct 53 1024 Hp He mode_NE z 0 s) as C. cbv zeta in C.
  assert (EF : F2R (Float radix2 z 0) = IZR z) by (unfold F2R; simpl; ring).
  rewrite EF in C. change (round radix2 (SpecFloat.fexp 53 1024) (round_mode mode_NE) (IZR z)) with (rnd (IZR z)) in C.
  rewrite rnd_id in C by (apply rep_int; auto).
  rewrite Rlt_bool_true in C.
  2:{ rewrite <- abs_IZR. apply Rle_lt_trans with (IZR (2 ^ 53)); [apply IZR_le; auto|]. change (IZR (2 ^ 53)) with (IZR (Zpower radix2 53)). rewrite IZR_Zpower by lia. apply bpow_lt. lia. }
  destruct C as (V & F & S). split; [apply lowered; auto|]. split; [rewrite val_B; auto|].
  intros Hz. rewrite sign_B, S. destruct (Z.ltb_spec z 0) as [L|L].
  - rewrite Rcompare_Lt by (apply (IZR_lt z 0); auto). reflexivity.
  - rewrite Rcompare_Gt by (apply (IZR_lt 0 z); lia). reflexivity.
Qed.
Lemma mant_bound s m e : finite_double (S754_finite s m e) -> (Z.pos m < 2 ^ 53)%Z /\ (e <= 971)%Z.
Proof.
  intros [H _]. unfold valid_binary, bounded in H. apply andb_prop in H as [H1 H2]. apply Z.leb_le in H2. split; [|lia].
  unfold canonical_mantissa in H1. apply Zeq_bool_eq in H1. rewrite fexp_eq, <- Digits.Zpos_digits2_pos || idtac.
  rewrite Digits.Zpos_digits2_pos in H1. unfold FLT_exp in H1.
  change (2 ^ 53)%Z with (Zpower radix2 53). rewrite <- (Z.abs_eq (Z.pos m)) by lia. apply Digits.Zpower_gt_Zdigits. rewrite fexp_eq in H1. unfold FLT_exp in H1. lia.
Qed.
Lemma nearest_div m d : (0 < d)%Z -> ZnearestE (IZR m / IZR d) =
  match Z.compare (2 * (m mod d)) d with Lt => (m / d)%Z | Gt => (m / d + 1)%Z | Eq => if Z.even (m / d) then (m / d)%Z else (m / d + 1)%Z end.
Proof.
  intros Hd. assert (Pd : 0 < IZR d) by (apply (IZR_lt 0); auto).
  unfold Znearest. rewrite Zfloor_div by lia.
  assert (Em : IZR m = IZR d * IZR (m / d) + IZR (m mod d)) by (rewrite <- mult_IZR, <- plus_IZR; f_equal; apply Z.div_mod; lia).
  assert (Ef : IZR m / IZR d - IZR (m / d) = IZR (m mod d) / IZR d) by (rewrite Em at 1; field; lra). rewrite Ef.
  assert (Hc : Rcompare (IZR (m mod d) / IZR d) (/ 2) = Z.compare (2 * (m mod d)) d).
  { rewrite <- (Rcompare_mult_r (2 * IZR d)) by lra. replace (IZR (m mod d) / IZR d * (2 * IZR d)) with (IZR (2 * (m mod d))) by (rewrite mult_IZR; field; lra).
    replace (/ 2 * (2 * IZR d)) with (IZR d) by field. apply Rcompare_IZR. }
  rewrite Hc.
  assert (Hceil : Z.compare (2 * (m mod d)) d <> Lt -> Zceil (IZR m / IZR d) = (m / d + 1)%Z).
  { intros H. rewrite Zceil_floor_neq; rewrite Zfloor_div by lia; [reflexivity|]. intros E. assert (E2 : IZR (m mod d) / IZR d = 0) by lra.
    assert (E3 : IZR (m mod d) = 0) by (replace (IZR (m mod d)) with (IZR (m mod d) / IZR d * IZR d) by (field; lra); rewrite E2; ring).
    apply eq_IZR in E3. apply H. rewrite E3. apply Z.compare_lt_iff. lia. }
  destruct (Z.compare (2 * (m mod d)) d) eqn:C; auto.
  - destruct (Z.even (m / d)); cbn; auto. apply Hceil. discriminate.
  - apply Hceil. discriminate.
Qed.
Lemma rint_correct x : finite_double x -> finite_double (f_rint x) /\ val (f_rint x) = IZR (ZnearestE (val x)) /\ sign_SF (f_rint x) = sign_SF x.
Proof.
  intros F. destruct x as [s|s| |s m e]; try (destruct F; discriminate).
  { split; [exact F|]. split; [|reflexivity]. unfold val. cbn. symmetry. rewrite (Zrnd_IZR _ 0). reflexivity. }
  destruct (mant_bound s m e F) as [Hm He']. cbn [f_rint].
  destruct (Z.leb_spec 0 e) as [L|L].
  { split; [exact F|]. split; [|reflexivity].
    assert (V : val (S754_finite s m e) = IZR (cond_Zopp s (Z.pos m) * Zpower radix2 e)) by (unfold val, SF2R, F2R; cbn [Fnum Fexp]; rewrite mult_IZR, IZR_Zpower by exact L; reflexivity).
    rewrite V. symmetry. f_equal. apply Zrnd_IZR. apply valid_rnd_N. }
  set (d := (2 ^ (- e))%Z). assert (Hd : (0 < d)%Z) by (apply Z.pow_pos_nonneg; lia).
  assert (Ev : val (S754_finite s m e) = if s then - (IZR (Z.pos m) / IZR d) else IZR (Z.pos m) / IZR d).
  { unfold val, SF2R, F2R. cbn [Fnum Fexp]. unfold d. change 2%Z with (radix_val radix2). rewrite IZR_Zpower by lia. rewrite bpow_opp. unfold Rdiv. rewrite Rinv_inv.
    destruct s; unfold cond_Zopp; [rewrite opp_IZR|]; ring. }
  pose proof (nearest_div (Z.pos m) d Hd) as N.
  set (z := match (2 * (Z.pos m mod d) ?= d)%Z with Lt => (Z.pos m / d)%Z | Gt => (Z.pos m / d + 1)%Z | Eq => if Z.even (Z.pos m / d) then (Z.pos m / d)%Z else (Z.pos m / d + 1)%Z end) in *.
  assert (Hz : (0 <= z <= 2 ^ 53)%Z).
  { assert (0 <= Z.pos m / d <= Z.pos m)%Z by (split; [apply Z.div_pos; lia|apply Z.div_le_upper_bound; nia]).
    unfold z. destruct (Z.compare _ _); [destruct (Z.even _)| |]; lia. }
  assert (Ez : ZnearestE (val (S754_finite s m e)) = cond_Zopp s z).
  { rewrite Ev. destruct s; unfold cond_Zopp; [|exact N]. rewrite Znearest_opp.
    assert (Hch : forall x, Znearest (fun t => negb (negb (Z.even (- (t + 1))))) x = ZnearestE x).
    { intros x. unfold Znearest. destruct (Rcompare _ _); auto. rewrite Z.even_opp, Z.even_add. cbn. destruct (Z.even (Zfloor x)); reflexivity. }
    rewrite Hch, N. reflexivity. }
  rewrite Ez. destruct (Z.eqb_spec z 0) as [E0|E0].
  - split; [split; reflexivity|]. split; [|reflexivity]. rewrite E0. unfold val. destruct s; reflexivity.
  - destruct (norm_int (cond_Zopp s z) s) as (A & B & C); [rewrite abs_cond_Zopp; lia|]. split; [exact A|]. split; [exact B|].
    rewrite C by (destruct s; cbn; lia). destruct s; cbn [cond_Zopp sign_SF]; [apply Z.ltb_lt|apply Z.ltb_ge]; lia.
Qed.
