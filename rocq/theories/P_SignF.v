(** Proofs about signed distances on doubles. *)
From Coq Require Import List Arith Bool ZArith Lia Reals Lra SpecFloat.
From Flocq Require Import Core IEEE754.BinarySingleNaN.
From Verif Require Import Util M_Base M_FixMesh M_CutF M_LapF M_QualF M_Edges M_PipF M_SignF S_Double S_Ieee S_Inpoly S_PipF S_SignF P_Double P_Ieee P_PipF.
From Verif Require S_Edges P_Edges P_CutF P_SetF.
Import ListNotations.
Open Scope R_scope.

(** * Rows *)
Definition node_f (rings : list (list fpt)) : list fpt := flat_map (fun l => l ++ [(S754_zero false, S754_zero false)]) rings.
Definition finite_ring (l : list fpt) : Prop := Forall finite_point l.
Lemma clean_finite p : finite_point p -> clean_row p = p.
Proof. destruct p as [x y]. intros [[_ A] [_ B]]. unfold clean_row. cbn [fst snd] in *. destruct x, y; try discriminate; reflexivity. Qed.
Lemma clean_rows rings : Forall finite_ring rings -> map clean_row (rows_f rings) = node_f rings.
Proof.
  induction 1 as [|l rings H _ IH]; [reflexivity|]. unfold rows_f, node_f in *. cbn [flat_map]. rewrite !map_app, IH. do 2 f_equal. induction H as [|p l P _ I]; [reflexivity|]. cbn. rewrite (clean_finite p P), I. reflexivity.
Qed.
Lemma finite_not_nan p : finite_point p -> is_nan_f (fst p) = false.
Proof. intros [[_ A] _]. destruct (fst p); try discriminate; reflexivity. Qed.
Lemma nan_rows rings : Forall finite_ring rings -> nan_column (rows_f rings) = S_Edges.nan_column (map (@length fpt) rings).
Proof.
  induction 1 as [|l rings H _ IH]; [reflexivity|]. unfold nan_column, rows_f, S_Edges.nan_column in *. cbn [flat_map map]. rewrite !map_app, IH. f_equal. cbn. f_equal. clear - H. induction H as [|p l P _ I]; [reflexivity|]. cbn. rewrite (finite_not_nan p P), I. reflexivity.
Qed.
Lemma proper_rows rings : Forall finite_ring rings -> proper (rows_f rings) = concat rings.
Proof.
  induction 1 as [|l rings H _ IH]; [reflexivity|]. unfold proper, rows_f in *. cbn [flat_map concat]. rewrite !filter_app, IH. cbn. rewrite app_nil_r. f_equal. clear - H. induction H as [|p l P _ I]; [reflexivity|]. cbn. rewrite (finite_not_nan p P). cbn. rewrite I. reflexivity.
Qed.
(** * Sides *)
Lemma sides_seq d : forall l, sides l = map (fun k => (nth k l d, nth (S k) l d)) (seq 0 (length l - 1)).
Proof.
  intros [|a l]; [reflexivity|]. cbn [sides length]. replace (S (length l) - 1)%nat with (length l) by lia. revert a. induction l as [|b l IH]; intros a; [reflexivity|]. cbn [sides_from length seq map]. f_equal. rewrite IH, <- seq_shift, map_map. reflexivity.
Qed.
Definition part (p : Z * nat) : list (Z * Z) := map (fun k => (fst p + Z.of_nat k, fst p + Z.of_nat k + 1)%Z) (seq 0 (snd p - 2)) ++ [(fst p + Z.of_nat (snd p) - 1, fst p)%Z].
Definition to_nats (es : list (Z * Z)) : list (nat * nat) := map (fun e => (Z.to_nat (fst e), Z.to_nat (snd e))) es.
Lemma part_sides pre l post : shut_f l -> segments (pre ++ l ++ post) (to_nats (part (Z.of_nat (length pre), length l))) = sides l.
Proof.
  intros (a & body & E). assert (L : length l = (length body + 3)%nat) by (rewrite E; cbn [length]; rewrite app_length; cbn [length]; lia).
  assert (N : forall k, (k < length l)%nat -> nth (Z.to_nat (Z.of_nat (length pre) + Z.of_nat k)) (pre ++ l ++ post) nan2 = nth k l nan2). { intros k K. rewrite app_nth2 by lia. rewrite app_nth1 by lia. f_equal. lia. }
  rewrite (sides_seq nan2). replace (length l - 1)%nat with (S (length l - 2)) by lia. rewrite seq_S, map_app. unfold part, segments, to_nats. cbn [fst snd]. rewrite !map_app, !map_map. cbn [map fst snd]. f_equal.
  - apply map_ext_in. intros k K. apply in_seq in K. cbn [fst snd]. f_equal; [apply N; lia|]. rewrite <- (N (S k)) by lia. f_equal. lia.
  - f_equal. assert (A0 : nth 0 l nan2 = a) by (rewrite E; reflexivity). assert (A1 : nth (length body + 1) l nan2 = a). { rewrite E. replace (length body + 1)%nat with (S (length body)) by lia. cbn [nth]. rewrite app_nth2 by lia. rewrite Nat.sub_diag. reflexivity. } assert (A2 : nth (length body + 2) l nan2 = a). { rewrite E. replace (length body + 2)%nat with (S (S (length body))) by lia. cbn [nth]. rewrite app_nth2 by lia. replace (S (length body) - length body)%nat with 1%nat by lia. reflexivity. }
    rewrite Nat.add_0_l. replace (length l - 2)%nat with (length body + 1)%nat by lia. replace (S (length body + 1)) with (length body + 2)%nat by lia. rewrite A1, A2.
    replace (Z.of_nat (length pre) + Z.of_nat (length l) - 1)%Z with (Z.of_nat (length pre) + Z.of_nat (length body + 2))%Z by lia. rewrite N by lia. rewrite A2. f_equal. replace (Z.of_nat (length pre)) with (Z.of_nat (length pre) + Z.of_nat 0)%Z by lia. rewrite N by lia. exact A0.
Qed.
Lemma shut_long l : shut_f l -> (3 <= length l)%nat. Proof. intros (a & body & ->). cbn [length]. rewrite app_length. cbn [length]. lia. Qed.
Lemma all_parts : forall rings pre, Forall shut_f rings -> segments (pre ++ node_f rings) (to_nats (flat_map part (S_Edges.part_offsets (Z.of_nat (length pre)) (map (@length fpt) rings)))) = all_sides rings.
Proof.
  induction rings as [|l rings IH]; intros pre H; [reflexivity|]. inversion H as [|? ? Hl Hr]; subst. cbn [map S_Edges.part_offsets flat_map all_sides]. unfold node_f. cbn [flat_map]. fold (node_f rings). unfold segments, to_nats. rewrite !map_app. f_equal.
  - rewrite <- app_assoc. exact (part_sides pre l _ Hl).
  - specialize (IH (pre ++ l ++ [(S754_zero false, S754_zero false)]) Hr). rewrite <- !app_assoc in IH. rewrite !app_length in IH. cbn [length] in IH. replace (Z.of_nat (length pre) + Z.of_nat (length l) + 1)%Z with (Z.of_nat (length pre + (length l + 1))) by lia. rewrite <- app_assoc. exact IH.
Qed.
Lemma all_bounds : forall rings pre, Forall shut_f rings -> forall e, In e (flat_map part (S_Edges.part_offsets (Z.of_nat (length pre)) (map (@length fpt) rings))) ->
  (0 <= fst e < Z.of_nat (length (pre ++ node_f rings)))%Z /\ (0 <= snd e < Z.of_nat (length (pre ++ node_f rings)))%Z.
Proof.
  induction rings as [|l rings IH]; intros pre H e I; [destruct I|]. inversion H as [|? ? Hl Hr]; subst. pose proof (shut_long l Hl) as L. cbn [map S_Edges.part_offsets flat_map] in I. unfold node_f. cbn [flat_map]. fold (node_f rings). apply in_app_or in I. destruct I as [I|I].
  - unfold part in I. cbn [fst snd] in I. rewrite !app_length. cbn [length]. apply in_app_or in I. destruct I as [I|[<-|[]]]; [|cbn [fst snd]; lia]. apply in_map_iff in I. destruct I as (k & <- & K). apply in_seq in K. cbn [fst snd]. lia.
  - assert (E : (Z.of_nat (length pre) + Z.of_nat (length l) + 1)%Z = Z.of_nat (length (pre ++ l ++ [(S754_zero false, S754_zero false)]))) by (rewrite !app_length; cbn [length]; lia). rewrite E in I. specialize (IH _ Hr e I). rewrite !app_length in *. cbn [length] in *. lia.
Qed.
(** * Point in polygon *)
Lemma odd_one {A} (P : A -> Prop) l : forall b c, odd_many P b l -> odd_many P c l -> b = c.
Proof. induction l as [|a l IH]; intros b c B C; inversion B; subst; inversion C; subst; try contradiction; try reflexivity; [f_equal|]; eauto. Qed.
Lemma poly_edges rings : rings <> [] -> Forall finite_ring rings -> get_poly_edges (nan_column (rows_f rings)) = Ok (flat_map part (S_Edges.part_offsets 0 (map (@length fpt) rings))).
Proof. intros N F. rewrite (nan_rows _ F). pose proof (P_Edges.poly_edges_by_part (map (@length fpt) rings) 0) as G. cbn [repeat] in G. rewrite app_nil_r in G. apply G. destruct rings; [congruence|discriminate]. Qed.
Lemma atmost_finite M rings : Forall (Forall (atmost M)) rings -> Forall finite_ring rings.
Proof. intros H. eapply Forall_impl; [|exact H]. intros l Hl. eapply Forall_impl; [|exact Hl]. intros p Hp. apply Hp. Qed.
Lemma node_atmost M rings : 0 <= M -> Forall (Forall (atmost M)) rings -> Forall (atmost M) (node_f rings).
Proof. intros P. induction 1 as [|l rings H _ IH]; [constructor|]. unfold node_f. cbn [flat_map]. apply Forall_app. split; [|exact IH]. apply Forall_app. split; [exact H|]. constructor; [|constructor]. split; [split; split; reflexivity|]. unfold RX, RY. cbn [fst snd]. change (val (S754_zero false)) with 0. rewrite Rabs_R0. lra. Qed.
Lemma inpoly_rings M ftol q rings : finite_double ftol -> 0 <= val ftol <= bpow radix2 500 -> M <= bpow radix2 500 -> atmost M q -> rings <> [] -> Forall shut_f rings -> clear_of_all (val ftol) M q rings ->
  exists e b, get_poly_edges (nan_column (rows_f rings)) = Ok e /\ inpoly2_f ftol (map clean_row (rows_f rings)) e q = Ok b /\ odd_many (crossesR q) b (all_sides rings).
Proof.
  intros FT VT HM Q N S [A C]. pose proof (atmost_finite _ _ A) as F. eexists. rewrite (poly_edges _ N F), (clean_rows _ F). pose proof (all_bounds rings [] S) as B. pose proof (all_parts rings [] S) as G. cbn [app length] in B, G. change (Z.of_nat 0) with 0%Z in B, G. set (e := flat_map part (S_Edges.part_offsets 0 (map (@length fpt) rings))) in *.
  assert (M0 : 0 <= M) by (destruct Q as (_ & Q & _); pose proof (Rabs_pos (RX q)); lra).
  destruct (fast_clear M ftol (node_f rings) (to_nats e) [q] 0 q FT VT HM) as (b & O & R).
  - intros x I. unfold to_nats in I. apply in_map_iff in I. destruct I as (z & <- & I). apply B in I. cbn [fst snd]. lia.
  - apply node_atmost; assumption.
  - reflexivity.
  - exact Q.
  - rewrite G. exact C.
  - exists b. split; [reflexivity|]. rewrite G in O. split; [|exact O]. unfold inpoly2_f. destruct (node_f rings) as [|n0 ns] eqn:EN; [exfalso; destruct rings as [|[|]]; [congruence|discriminate|discriminate]|]. rewrite <- EN in *. replace (forallb _ e) with true. 2: { symmetry. apply forallb_forall. intros z I. apply B in I. rewrite !andb_true_iff, !Z.leb_le, !Z.ltb_lt. lia. }
    fold (to_nats e). unfold inpoly_fast_f in *. cbn [map nth_error] in *. injection R as R. unfold to_nats in R. subst e. rewrite R. reflexivity.
Qed.
(** * Signs *)
Lemma signed_val c d : finite_double d -> finite_double (signed_f c d) /\ val (signed_f c d) = if c then - val d else val d.
Proof.
  intros F. pose proof (P_SetF.finite_below d F) as B. unfold signed_f. assert (P : finite_double f_plus1 /\ val f_plus1 = 1) by (split; [split; reflexivity|unfold val, f_plus1, SF2R, F2R; cbn; lra]). assert (N : finite_double f_minus1 /\ val f_minus1 = - 1) by (split; [split; reflexivity|unfold val, f_minus1, SF2R, F2R; cbn; lra]). destruct P as [P1 P2], N as [N1 N2]. pose proof (format_val d F) as R. destruct (opp_double d F) as [FO VO]. pose proof (format_val _ FO) as RO. rewrite VO in RO. destruct c.
  - destruct (mul_rounds f_minus1 d N1 F) as [FV V]; rewrite N2 in *; replace (- 1 * val d) with (- val d) in * by ring; rewrite rnd_id in * by exact RO; [rewrite Rabs_Ropp; exact B|]. split; assumption.
  - destruct (mul_rounds f_plus1 d P1 F) as [FV V]; rewrite P2 in *; rewrite Rmult_1_l in *; rewrite rnd_id in * by exact R; [exact B|]. split; assumption.
Qed.
Lemma flip_val d : finite_double d -> finite_double (fmul d f_minus1) /\ val (fmul d f_minus1) = - val d.
Proof.
  intros F. pose proof (P_SetF.finite_below d F) as B. assert (N : finite_double f_minus1 /\ val f_minus1 = - 1) by (split; [split; reflexivity|unfold val, f_minus1, SF2R, F2R; cbn; lra]). destruct N as [N1 N2]. destruct (opp_double d F) as [FO VO]. pose proof (format_val _ FO) as RO. rewrite VO in RO.
  destruct (mul_rounds d f_minus1 F N1) as [FV V]; rewrite N2 in *; replace (val d * - 1) with (- val d) in * by ring; rewrite rnd_id in * by exact RO; [rewrite Rabs_Ropp; exact B|]. split; assumption.
Qed.
Lemma isfinite_ok x : finite_double x -> isfinite_f x = true. Proof. intros [_ F]. destruct x; try discriminate; reflexivity. Qed.
Lemma far_val : finite_double f_far /\ val f_far = 10 ^ 12. Proof. split; [split; reflexivity|]. unfold val, f_far, SF2R, F2R. cbn. lra. Qed.
(** * Theorems *)
Section Signed.
Variable near : list fpt -> fpt -> spec_float.
Hypothesis NEAR : forall rows q, finite_point q -> finite_double (near rows q) /\ 0 <= val (near rows q).
Variables (M : R) (ftol : spec_float).
Hypothesis FT : finite_double ftol.
Hypothesis VT : 0 <= val ftol <= bpow radix2 500.
Hypothesis HM : M <= bpow radix2 500.
Lemma clear_boxes q inner boxes : clear_of_all (val ftol) M q (inner ++ boxes) -> clear_of_all (val ftol) M q boxes.
Proof. intros [A C]. apply Forall_app in A. split; [apply A|]. intros s I. apply C. unfold all_sides in *. rewrite flat_map_app. apply in_or_app. right. exact I. Qed.
Lemma rows_app a b : rows_f a ++ rows_f b = rows_f (a ++ b). Proof. unfold rows_f. rewrite flat_map_app. reflexivity. Qed.
Theorem value_sea q inner boxes : atmost M q -> boxes <> [] -> Forall shut_f inner -> Forall shut_f boxes -> clear_of_all (val ftol) M q (inner ++ boxes) ->
  let d := val (near (concat (inner ++ boxes)) q) in
  exists v w, value_f near ftol (rows_f inner) (rows_f boxes) false q = Ok v /\ finite_double v /\ Rabs (val v) = d /\ (val v < 0 <-> 0 < d /\ inside_f q boxes /\ inside_f q (inner ++ boxes)) /\
    value_f near ftol (rows_f inner) (rows_f boxes) true q = Ok w /\ finite_double w /\ val w = - val v.
Proof.
  intros Q N S1 S2 C d. assert (N2 : inner ++ boxes <> []) by (destruct inner; [exact N|discriminate]). pose proof (atmost_finite _ _ (proj1 C)) as F.
  destruct (inpoly_rings M ftol q (inner ++ boxes) FT VT HM Q N2 (proj2 (Forall_app _ _ _) (conj S1 S2)) C) as (e & ins & E1 & I1 & O1). destruct (inpoly_rings M ftol q boxes FT VT HM Q N S2 (clear_boxes _ _ _ C)) as (eb & inb & E2 & I2 & O2).
  destruct Q as [FQ _]. destruct (NEAR (concat (inner ++ boxes)) q FQ) as [FN PN]. fold d in PN. destruct (signed_val (ins && inb) _ FN) as [FV VV]. fold d in VV. destruct (flip_val _ FV) as [FW VW].
  unfold value_f. cbv zeta. rewrite rows_app, E1. cbn [bind]. rewrite E2. cbn [bind]. rewrite (isfinite_ok _ (proj1 FQ)), (isfinite_ok _ (proj2 FQ)). cbn [andb]. rewrite I2. cbn [bind]. rewrite I1. cbn [bind]. rewrite (proper_rows _ F). do 2 eexists. split; [reflexivity|]. split; [exact FV|]. rewrite VV. split; [destruct (ins && inb); [rewrite Rabs_Ropp|]; apply Rabs_pos_eq; exact PN|].
  split; [|split; [reflexivity|split; [exact FW|]]; rewrite VW, VV; reflexivity].
  unfold inside_f. split.
  - destruct ins, inb; cbn [andb]; intros H; try lra. split; [lra|]. split; assumption.
  - intros (P & H1 & H2). rewrite (odd_one _ _ _ _ O1 H2), (odd_one _ _ _ _ O2 H1). cbn. lra.
Qed.
Theorem covering_sea q boxes : atmost M q -> boxes <> [] -> Forall shut_f boxes -> clear_of_all (val ftol) M q boxes ->
  let d := val (near (concat boxes) q) in exists v, covering_f near ftol (rows_f boxes) q = Ok v /\ finite_double v /\ Rabs (val v) = d /\ (val v < 0 <-> 0 < d /\ inside_f q boxes).
Proof.
  intros Q N S2 C d. pose proof (atmost_finite _ _ (proj1 C)) as F. destruct (inpoly_rings M ftol q boxes FT VT HM Q N S2 C) as (eb & inb & E2 & I2 & O2). destruct Q as [FQ _]. destruct (NEAR (concat boxes) q FQ) as [FN PN]. fold d in PN. destruct (signed_val inb _ FN) as [FV VV]. fold d in VV.
  unfold covering_f. rewrite E2. cbn [bind]. rewrite (isfinite_ok _ (proj1 FQ)), (isfinite_ok _ (proj2 FQ)). cbn [andb]. rewrite I2. cbn [bind]. rewrite (proper_rows _ F). eexists. split; [reflexivity|]. split; [exact FV|]. rewrite VV. split; [destruct inb; [rewrite Rabs_Ropp|]; apply Rabs_pos_eq; exact PN|]. unfold inside_f. split.
  - destruct inb; intros H; [|lra]. split; [lra|exact O2].
  - intros [P H]. rewrite (odd_one _ _ _ _ O2 H). lra.
Qed.
End Signed.
(** Queries that are not finite. *)
Theorem value_nonfinite near ftol inner boxes q : Forall finite_ring (inner ++ boxes) -> boxes <> [] -> isfinite_f (fst q) && isfinite_f (snd q) = false ->
  exists v w c, value_f near ftol (rows_f inner) (rows_f boxes) false q = Ok v /\ val v = 10 ^ 12 /\ value_f near ftol (rows_f inner) (rows_f boxes) true q = Ok w /\ val w = - 10 ^ 12 /\ covering_f near ftol (rows_f boxes) q = Ok c /\ val c = 10 ^ 12.
Proof.
  intros F N Q. assert (N2 : inner ++ boxes <> []) by (destruct inner; [exact N|discriminate]). destruct far_val as [FF VF]. destruct (signed_val false _ FF) as [FV VV]. destruct (flip_val _ FV) as [_ VW]. unfold value_f, covering_f. cbv zeta. rewrite rows_app, (poly_edges _ N2 F). cbn [bind]. rewrite (poly_edges boxes N) by (apply Forall_app in F; apply F). cbn [bind]. rewrite Q. cbn [bind].
  do 3 eexists. split; [reflexivity|]. split; [rewrite VV; exact VF|]. split; [reflexivity|]. split; [rewrite VW, VV, VF; reflexivity|]. split; [reflexivity|]. rewrite VV. exact VF.
Qed.
(** * Cases *)
Definition tri_ring : list fpt := [(f_zero, f_zero); (c_four, f_zero); (f_zero, c_four); (f_zero, f_zero); (f_zero, f_zero)].
Definition flat_ring : list fpt := [(f_zero, f_zero); (f_one, c_min); (c_half, f_one); (f_zero, f_zero); (f_zero, f_zero)].
Lemma tri_sides : sides tri_ring = segments tri ring3 ++ [((f_zero, f_zero), (f_zero, f_zero))]. Proof. reflexivity. Qed.
Lemma flat_sides : sides flat_ring = segments flat3 ring3 ++ [((f_zero, f_zero), (f_zero, f_zero))]. Proof. reflexivity. Qed.
Lemma same_clear m q a b : clear_of m q (a, b) -> clear_of m q (a, a).
Proof. intros H t _. specialize (H 0 ltac:(lra)). unfold at_x, at_y in *. cbn [fst snd] in *. replace (RX a + t * (RX a - RX a)) with (RX a + 0 * (RX b - RX a)) by ring. replace (RY a + t * (RY a - RY a)) with (RY a + 0 * (RY b - RY a)) by ring. exact H. Qed.
Lemma same_not_crossed q a : ~ crossesR q (a, a). Proof. intros [[H|H] _]; cbn [fst snd] in H; lra. Qed.
Lemma odd_snoc {A} (P : A -> Prop) x l : forall b, ~ P x -> odd_many P b l -> odd_many P b (l ++ [x]).
Proof. intros b N. induction 1; cbn [app]; [apply om_no; [exact N|constructor]|apply om_yes; assumption|apply om_no; assumption]. Qed.
Definition near_1 (_ : list fpt) (_ : fpt) : spec_float := f_one.
Theorem sea_case : let q := (f_one, f_one) in
  atmost 4 q /\ [tri_ring] <> [] /\ Forall shut_f [tri_ring] /\ clear_of_all (val c_ftol) 4 q ([] ++ [tri_ring]) /\ clear_of_all (val c_ftol) 4 q ([tri_ring] ++ [tri_ring]) /\
  value_f near_1 c_ftol (rows_f []) (rows_f [tri_ring]) false q = Ok (SFopp f_one) /\ value_f near_1 c_ftol (rows_f [tri_ring]) (rows_f [tri_ring]) false q = Ok f_one.
Proof.
  cbv zeta. destruct tri_case as (_ & _ & _ & _ & A & Q & C & _). split; [exact Q|]. split; [discriminate|]. split; [constructor; [exists (f_zero, f_zero), [(c_four, f_zero); (f_zero, c_four)]; reflexivity|constructor]|].
  assert (AR : Forall (atmost 4) tri_ring). { inversion A as [|? ? A1 A2]; subst. inversion A2 as [|? ? A3 A4]; subst. inversion A4 as [|? ? A5 _]; subst. repeat (constructor; [assumption|]). constructor. }
  assert (CS : forall s, In s (sides tri_ring) -> not_flat s /\ clear_of (margin (val c_ftol) 4) (f_one, f_one) s). { intros s I. rewrite tri_sides in I. apply in_app_or in I. destruct I as [I|[<-|[]]]; [exact (C s I)|]. split; [left; reflexivity|]. eapply same_clear. apply (C ((f_zero, f_zero), (c_four, f_zero))). left. reflexivity. }
  split; [split; [constructor; [exact AR|constructor]|]; intros s I; apply CS; unfold all_sides in I; cbn [app flat_map] in I; rewrite app_nil_r in I; exact I|].
  split; [split; [constructor; [exact AR|constructor; [exact AR|constructor]]|]; intros s I; apply CS; unfold all_sides in I; cbn [app flat_map] in I; rewrite app_nil_r in I; apply in_app_or in I; destruct I; assumption|].
  split; vm_compute; reflexivity.
Qed.
Theorem flat_sea : let q := (SFopp f_one, f_zero) in
  shut_f flat_ring /\ Forall (atmost 1) flat_ring /\ atmost 1 q /\ (forall s, In s (sides flat_ring) -> clear_of (/ 2) q s) /\ ~ inside_f q [flat_ring] /\
  value_f near_1 c_ftol (rows_f []) (rows_f [flat_ring]) false q = Ok (SFopp f_one) /\ covering_f near_1 c_ftol (rows_f [flat_ring]) q = Ok (SFopp f_one).
Proof.
  cbv zeta. destruct flat_wrong as (A & Q & C & O & _). split; [exists (f_zero, f_zero), [(f_one, c_min); (c_half, f_one)]; reflexivity|]. split.
  { inversion A as [|? ? A1 A2]; subst. inversion A2 as [|? ? A3 A4]; subst. inversion A4 as [|? ? A5 _]; subst. repeat (constructor; [assumption|]). constructor. }
  split; [exact Q|]. split. { intros s I. rewrite flat_sides in I. apply in_app_or in I. destruct I as [I|[<-|[]]]; [exact (C s I)|]. eapply same_clear. apply (C ((f_zero, f_zero), (f_one, c_min))). left. reflexivity. }
  split; [|split; vm_compute; reflexivity]. intros H. unfold inside_f, all_sides in H. cbn [flat_map] in H. rewrite app_nil_r, flat_sides in H. pose proof (odd_snoc _ _ _ _ (same_not_crossed (SFopp f_one, f_zero) (f_zero, f_zero)) O) as O2. pose proof (odd_one _ _ _ _ O2 H). discriminate.
Qed.
(** The domain lies in its covering, whatever the rows. *)
Theorem value_covered near ftol inner boubox q v : (forall rows q, finite_point q -> finite_double (near rows q) /\ 0 <= val (near rows q)) ->
  valid_binary 53 1024 (fst q) = true -> valid_binary 53 1024 (snd q) = true -> value_f near ftol inner boubox false q = Ok v -> val v < 0 -> 0 < val (near (proper boubox) q) ->
  exists c, covering_f near ftol boubox q = Ok c /\ val c = - val (near (proper boubox) q).
Proof.
  intros NEAR V1 V2 H N P. unfold value_f in H. cbv zeta in H. unfold covering_f. destruct (get_poly_edges (nan_column (inner ++ boubox))) as [e| |]; cbn [bind] in H; try discriminate. destruct (get_poly_edges (nan_column boubox)) as [eb| |]; cbn [bind] in H |- *; try discriminate.
  destruct (isfinite_f (fst q) && isfinite_f (snd q)) eqn:F.
  - assert (FQ : finite_point q). { apply andb_true_iff in F. destruct F as [F1 F2]. split; (split; [assumption|]); [destruct (fst q)|destruct (snd q)]; try discriminate; reflexivity. }
    destruct (inpoly2_f ftol (map clean_row boubox) eb q) as [inb| |]; cbn [bind] in H |- *; try discriminate. destruct (inpoly2_f ftol (map clean_row (inner ++ boubox)) e q) as [ins| |]; cbn [bind] in H; try discriminate. injection H as <-.
    destruct (NEAR (proper (inner ++ boubox)) q FQ) as [FN PN]. destruct (signed_val (ins && inb) _ FN) as [_ VV]. rewrite VV in N. destruct inb; [|rewrite andb_false_r in N; lra]. eexists. split; [reflexivity|]. destruct (NEAR (proper boubox) q FQ) as [FB _]. apply (signed_val true _ FB).
  - cbn [bind] in H. injection H as <-. destruct far_val as [FF VF]. destruct (signed_val false _ FF) as [_ VV]. rewrite VV, VF in N. pose proof (pow_lt 10 12 ltac:(lra)). lra.
Qed.
Theorem covered_case : let q := (f_one, f_one) in exists v, value_f near_1 c_ftol (rows_f []) (rows_f [tri_ring]) false q = Ok v /\ val v < 0 /\ 0 < val (near_1 (proper (rows_f [tri_ring])) q) /\ (forall rows q, finite_point q -> finite_double (near_1 rows q) /\ 0 <= val (near_1 rows q)).
Proof. cbv zeta. exists (SFopp f_one). split; [vm_compute; reflexivity|]. unfold near_1. rewrite minus_one_val, P_LapF.one_val. split; [lra|]. split; [lra|]. intros _ _ _. split; [apply P_LapF.one_fin|lra]. Qed.
