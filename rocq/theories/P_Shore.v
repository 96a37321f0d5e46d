(** Proofs about the shoreline helpers. *)
From Coq Require Import List Arith Bool ZArith QArith Qabs Qround Qminmax Lia Lqa.
From Verif Require Import M_Base M_Shore S_Shore Util P_Grid.
Import ListNotations.
Open Scope Q_scope.

(** * C43 *)
Lemma clump_points : forall q cur a, clump_unmasked (map Some q ++ None :: a) cur =
  match cur ++ map Some q with [] => clump_unmasked a [] | c => c :: clump_unmasked a [] end.
Proof.
  induction q as [|p q IH]; intros cur a; cbn [map app clump_unmasked is_nan].
  - rewrite app_nil_r. destruct cur; reflexivity.
  - rewrite IH. rewrite <- app_assoc. reflexivity.
Qed.
Lemma clump_parts : forall parts, Forall part parts -> map (fun p => p ++ [None]) (clump_unmasked (concat parts) []) = parts.
Proof.
  induction 1 as [|p parts (q & qs & E) _ IH]; [reflexivity|].
  cbn [concat]. rewrite E at 1. rewrite <- app_assoc. change (([None] : list row) ++ concat parts) with (@None point :: concat parts).
  rewrite clump_points. cbn [app map]. change (@None point :: concat parts) with (@None (Q * Q) :: concat parts) in *. rewrite IH.
  rewrite E. reflexivity.
Qed.
Lemma to_list_to_array : forall parts, parts <> [] -> Forall part parts ->
  exists arr, convert_to_array parts = Ok arr /\ convert_to_list arr = parts.
Proof.
  intros parts H F. exists (concat parts). split; [destruct parts; [congruence|reflexivity]|].
  unfold convert_to_list. cbn [clump_unmasked is_nan]. apply clump_parts; exact F.
Qed.
Lemma to_array_to_list : forall parts, parts <> [] -> Forall part parts -> convert_to_array (convert_to_list (concat parts)) = Ok (concat parts).
Proof.
  intros parts H F. unfold convert_to_list. cbn [clump_unmasked is_nan]. unfold row, point in *.
  pose proof (clump_parts parts F) as E. unfold row, point in *. rewrite E. destruct parts; [congruence|reflexivity].
Qed.
(** For any array at all: the parts are proper and hold the points in order. *)
Lemma clump_any : forall a cur, Forall (fun r => is_nan r = false) cur ->
  Forall part (map (fun p => p ++ [None]) (clump_unmasked a cur)) /\
  points_of (concat (map (fun p => p ++ [None]) (clump_unmasked a cur))) = points_of (cur ++ a).
Proof.
  assert (P : forall cur, cur <> [] -> Forall (fun r => is_nan r = false) cur -> part (cur ++ [None])).
  { intros cur N F. destruct cur as [|[p|] cur]; [congruence| |inversion F; discriminate].
    exists p, (points_of cur). f_equal. cbn. f_equal. clear N. inversion_clear F as [|? ? _ F'].
    induction cur as [|[q|] cur IH]; [reflexivity| |inversion F'; discriminate]. cbn. f_equal. apply IH. inversion F'; assumption. }
  assert (A : forall l m, points_of (l ++ m) = points_of l ++ points_of m).
  { intros l m. unfold points_of. apply flat_map_app. }
  induction a as [|r a IH]; intros cur F; cbn [clump_unmasked].
  - destruct cur as [|c cur]; [split; [constructor|reflexivity]|].
    split; [constructor; [apply P; [discriminate|exact F]|constructor]|]. cbn [map concat]. rewrite !A. cbn [points_of flat_map]. rewrite !app_nil_r. reflexivity.
  - destruct (is_nan r) eqn:E.
    + destruct r; [discriminate|]. destruct (IH [] ltac:(constructor)) as [IH1 IH2].
      destruct cur as [|c cur]; [split; [exact IH1|rewrite IH2; reflexivity]|].
      cbn [map]. split; [constructor; [apply P; [discriminate|exact F]|exact IH1]|].
      cbn [concat]. rewrite A, IH2, !A. cbn [points_of flat_map app]. rewrite app_nil_r. reflexivity.
    + destruct (IH (cur ++ [r])) as [IH1 IH2]; [apply Forall_app; split; [exact F|constructor; auto]|].
      split; [exact IH1|]. rewrite IH2, <- app_assoc. reflexivity.
Qed.
Lemma to_list_any : forall arr, Forall part (convert_to_list arr) /\ points_of (concat (convert_to_list arr)) = points_of arr.
Proof.
  intro arr. unfold convert_to_list. cbn [clump_unmasked is_nan]. apply (clump_any arr []). constructor.
Qed.
Lemma to_list_empty : forall arr, (forall r, In r arr -> r = None) -> convert_to_array (convert_to_list arr) = Raise ValueError.
Proof.
  intros arr H. unfold convert_to_list. cbn [clump_unmasked is_nan].
  assert (E : clump_unmasked arr [] = []).
  { induction arr as [|r arr IH]; [reflexivity|]. rewrite (H r (or_introl eq_refl)). cbn [clump_unmasked is_nan]. apply IH. intros s I. apply H. right; exact I. }
  rewrite E. reflexivity.
Qed.

(** * C44 *)
Lemma pt_eq_refl : forall p, pt_eq p p. Proof. split; reflexivity. Qed.
Lemma row_eq_refl : forall r, row_eq r r. Proof. intros [p|]; cbn; auto using pt_eq_refl. Qed.
Lemma write_rows_repeat : forall w v m, (length v <= m)%nat ->
  write_rows (w ++ repeat None m) (length w) v = (w ++ v) ++ repeat None (m - length v).
Proof.
  intros w v m H. unfold write_rows. rewrite firstn_app, firstn_all, Nat.sub_diag, firstn_O, app_nil_r.
  rewrite skipn_app. rewrite (skipn_all2 w) by lia. replace (length w + length v - length w)%nat with (length v) by lia.
  cbn [app]. rewrite <- app_assoc. do 2 f_equal.
  replace m with (length v + (m - length v))%nat at 1 by lia. rewrite repeat_app.
  rewrite skipn_app, skipn_all2, repeat_length, Nat.sub_diag; [reflexivity|rewrite repeat_length; lia].
Qed.
(** The rows written for one segment. *)
Definition segment (a b : row) (ni : option Z) : list row :=
  match ni, a, b with
  | Some z, Some p, Some q => if (z =? 0)%Z then [a] else
      let k := Z.to_nat z in
      map Some (combine (firstn (k + 1) (create_range (fst p) (fst q) (k + 2))) (firstn (k + 1) (create_range (snd p) (snd q) (k + 2))))
  | _, _, _ => [a]
  end.
Fixpoint pieces (poly : list row) (nin : list (option Z)) : list row :=
  match poly, nin with
  | a :: ((b :: _) as t), ni :: ns => segment a b ni ++ pieces t ns
  | _, _ => []
  end.
Lemma loop_step : forall a b t ni ns n out, densify_loop (a :: b :: t) (ni :: ns) n out =
  densify_loop (b :: t) ns (n + length (segment a b ni)) (write_rows out n (segment a b ni)).
Proof.
  intros a b t ni ns n out. destruct ni as [z|]; [|reflexivity].
  destruct a as [p|]; [|cbn; destruct (z =? 0)%Z; reflexivity]. destruct b as [q|]; [|cbn; destruct (z =? 0)%Z; reflexivity].
  destruct (z =? 0)%Z eqn:E; [cbn; rewrite E; reflexivity|].
  assert (LL : length (segment (Some p) (Some q) (Some z)) = (Z.to_nat z + 1)%nat).
  { unfold segment. rewrite E. rewrite map_length, combine_length, !firstn_length. unfold create_range. rewrite !map_length, !seq_length. lia. }
  rewrite LL. unfold segment. rewrite E. cbn [densify_loop]. rewrite E. reflexivity.
Qed.
Lemma loop_pieces : forall poly nin w m, (length (pieces poly nin) <= m)%nat ->
  densify_loop poly nin (length w) (w ++ repeat None m) = (w ++ pieces poly nin) ++ repeat None (m - length (pieces poly nin)).
Proof.
  induction poly as [|a [|b t] IH]; intros nin w m H.
  - cbn. rewrite app_nil_r, Nat.sub_0_r. reflexivity.
  - cbn. rewrite app_nil_r, Nat.sub_0_r. reflexivity.
  - destruct nin as [|ni ns]; [cbn; rewrite app_nil_r, Nat.sub_0_r; reflexivity|].
    change (pieces (a :: b :: t) (ni :: ns)) with (segment a b ni ++ pieces (b :: t) ns) in *.
    rewrite app_length in H. rewrite loop_step. rewrite write_rows_repeat by lia.
    rewrite <- app_length. rewrite IH by lia. rewrite (app_length (segment a b ni)). rewrite <- !app_assoc. do 4 f_equal. lia.
Qed.
Lemma segment_length : forall a b d m, length (segment a b (nin_of d a b m)) = S (Z.to_nat (match nin_of d a b m with Some z => z | None => 0%Z end)).
Proof.
  intros a b d m. unfold nin_of. destruct m; cbn [negb].
  - destruct a as [p|]; [|reflexivity]. destruct b as [q|]; [|reflexivity]. cbn [segment].
    set (z := if (_ <? 0)%Z then 0%Z else _). destruct (Z.eqb_spec z 0) as [->|N]; [reflexivity|].
    rewrite map_length, combine_length, !firstn_length. unfold create_range. rewrite !map_length, !seq_length. lia.
  - unfold segment. destruct a; [destruct b|]; reflexivity.
Qed.
Lemma nin_nonneg : forall d a b m z, nin_of d a b m = Some z -> (0 <= z)%Z.
Proof.
  intros d a b m z. unfold nin_of. destruct m; cbn [negb]; [|intros [= <-]; lia].
  destruct a as [p|]; [|discriminate]. destruct b as [q|]; [|discriminate].
  set (n := (_ - 1)%Z). destruct (Z.ltb_spec n 0); intros [= <-]; lia.
Qed.
Lemma nansum_nonneg : forall d poly mask, (0 <= nansum (nin_all d poly mask))%Z.
Proof.
  intros d. induction poly as [|a [|b t] IH]; intros [|m [|m' ms]]; try (cbn; lia).
  change (nansum (nin_all d (a :: b :: t) (m :: m' :: ms))) with
    ((match nin_of d a b m' with Some n => n | None => 0 end + nansum (nin_all d (b :: t) (m' :: ms)))%Z).
  specialize (IH (m' :: ms)). destruct (nin_of d a b m') as [z|] eqn:E; [apply nin_nonneg in E|]; lia.
Qed.
Lemma pieces_length : forall d poly mask, length mask = length poly -> poly <> [] ->
  (length (pieces poly (nin_all d poly mask)) + 1 = Z.to_nat (nansum (nin_all d poly mask)) + length poly)%nat.
Proof.
  intros d. induction poly as [|a [|b t] IH]; intros [|m [|m' ms]] L N; try (cbn in L; lia); try congruence.
  - reflexivity.
  - change (nin_all d (a :: b :: t) (m :: m' :: ms)) with (nin_of d a b m' :: nin_all d (b :: t) (m' :: ms)).
    change (nansum (nin_of d a b m' :: nin_all d (b :: t) (m' :: ms))) with
      ((match nin_of d a b m' with Some n => n | None => 0 end + nansum (nin_all d (b :: t) (m' :: ms)))%Z).
    change (pieces (a :: b :: t) (nin_of d a b m' :: nin_all d (b :: t) (m' :: ms))) with
      (segment a b (nin_of d a b m') ++ pieces (b :: t) (nin_all d (b :: t) (m' :: ms))).
    rewrite app_length, segment_length. specialize (IH (m' :: ms) ltac:(cbn in *; lia) ltac:(discriminate)).
    pose proof (nansum_nonneg d (b :: t) (m' :: ms)). change (length (a :: b :: t)) with (S (length (b :: t))).
    rewrite Z2Nat.inj_add; [|destruct (nin_of d a b m') eqn:E; [apply nin_nonneg in E; exact E|lia]|exact H]. lia.
Qed.
Lemma densify_pieces : forall d poly mask, length mask = length poly -> poly <> [] -> nansum (nin_all d poly mask) <> 0%Z ->
  densify poly d mask = pieces poly (nin_all d poly mask) ++ [last poly None].
Proof.
  intros d poly mask L N S. unfold densify. destruct (Z.eqb_spec (nansum (nin_all d poly mask)) 0) as [E|_]; [congruence|].
  pose proof (pieces_length d poly mask L N) as PL. set (nout := (Z.to_nat _ + length poly)%nat) in *.
  rewrite <- (app_nil_l (repeat None nout)).
  rewrite (loop_pieces poly (nin_all d poly mask) []) by lia. cbn [app].
  replace (nout - length (pieces poly (nin_all d poly mask)))%nat with 1%nat by lia.
  replace (nout - 1)%nat with (length (pieces poly (nin_all d poly mask))) by lia.
  rewrite write_rows_repeat by (cbn; lia). cbn [length Nat.sub repeat]. rewrite app_nil_r. reflexivity.
Qed.
Lemma pieces_zero : forall d poly mask, length mask = length poly -> poly <> [] -> nansum (nin_all d poly mask) = 0%Z ->
  pieces poly (nin_all d poly mask) ++ [last poly None] = poly.
Proof.
  intros d. induction poly as [|a [|b t] IH]; intros [|m [|m' ms]] L N S; try (cbn in L; lia); try congruence.
  - reflexivity.
  - change (nin_all d (a :: b :: t) (m :: m' :: ms)) with (nin_of d a b m' :: nin_all d (b :: t) (m' :: ms)) in *.
    change (nansum (nin_of d a b m' :: nin_all d (b :: t) (m' :: ms))) with
      ((match nin_of d a b m' with Some n => n | None => 0 end + nansum (nin_all d (b :: t) (m' :: ms)))%Z) in S.
    change (pieces (a :: b :: t) (nin_of d a b m' :: nin_all d (b :: t) (m' :: ms))) with
      (segment a b (nin_of d a b m') ++ pieces (b :: t) (nin_all d (b :: t) (m' :: ms))).
    pose proof (nansum_nonneg d (b :: t) (m' :: ms)) as H.
    change (last (a :: b :: t) None) with (last (b :: t) None). rewrite <- app_assoc.
    assert (Z0 : (0 <= match nin_of d a b m' with Some n => n | None => 0 end)%Z).
    { destruct (nin_of d a b m') eqn:E; [apply nin_nonneg in E; exact E|lia]. }
    rewrite IH; [|cbn in *; lia|discriminate|lia].
    assert (E0 : match nin_of d a b m' with Some n => n | None => 0%Z end = 0%Z) by lia.
    unfold segment. destruct (nin_of d a b m') as [z|]; [subst z|reflexivity]. cbn. destruct a; [destruct b|]; reflexivity.
Qed.
Lemma densify_all : forall d poly mask, length mask = length poly -> poly <> [] ->
  densify poly d mask = pieces poly (nin_all d poly mask) ++ [last poly None].
Proof.
  intros d poly mask L N. destruct (Z.eq_dec (nansum (nin_all d poly mask)) 0) as [E|E]; [|apply densify_pieces; assumption].
  rewrite pieces_zero by assumption. unfold densify. rewrite E. reflexivity.
Qed.
(** How many pieces. *)
Lemma span_max : forall p q e, span_le p q e <-> Qmax (Qabs (snd q - snd p)) (Qabs (fst q - fst p)) <= e.
Proof.
  intros p q e. unfold span_le. split; [intros [A B]; apply Q.max_lub; assumption|].
  intro H. split; (eapply Qle_trans; [|exact H]); [apply Q.le_max_r|apply Q.le_max_l].
Qed.
Lemma pieces_needed : forall d p q, 0 < d ->
  let n := (Qceiling (Qmax (Qabs (snd q - snd p)) (Qabs (fst q - fst p)) / d) - 1)%Z in
  fewest_pieces d p q (Z.to_nat (if (n <? 0)%Z then 0%Z else n)).
Proof.
  intros d p q D. set (M := Qmax _ _). cbv zeta. set (c := Qceiling (M / d)).
  assert (M0 : 0 <= M) by (eapply Qle_trans; [apply (Qabs_nonneg (snd q - snd p))|apply Q.le_max_l]).
  assert (UB : M <= inject_Z c * d).
  { pose proof (Qle_ceiling (M / d)) as U. fold c in U. apply Qmult_le_r with (z := d) in U; [|exact D].
    setoid_replace (M / d * d) with M in U; [exact U|field; lra]. }
  assert (LB : forall z : Z, (z < c)%Z -> ~ M <= inject_Z z * d).
  { intros z Z H. assert (M / d <= inject_Z z).
    { apply Qmult_le_r with (z := d); [exact D|]. setoid_replace (M / d * d) with M; [exact H|field; lra]. }
    pose proof (Qceiling_resp_le _ _ H0) as R. rewrite Qceiling_Z in R. fold c in R. lia. }
  assert (C0 : (0 <= c)%Z).
  { destruct (Z_le_gt_dec 0 c) as [|G]; [assumption|]. exfalso.
    assert (inject_Z c <= -1) by (change (-1) with (inject_Z (-1)); rewrite <- Zle_Qle; lia).
    assert (inject_Z c * d <= (-1) * d) by (apply Qmult_le_r; assumption). lra. }
  split.
  - apply span_max. fold M. destruct (Z.ltb_spec (c - 1) 0) as [L|L].
    + eapply Qle_trans; [exact UB|]. apply Qmult_le_r; [exact D|]. rewrite <- Zle_Qle. lia.
    + eapply Qle_trans; [exact UB|]. apply Qmult_le_r; [exact D|]. rewrite <- Zle_Qle. lia.
  - intros j J H. apply span_max in H. fold M in H. destruct (Z.ltb_spec (c - 1) 0) as [L|L]; [cbn in J; lia|].
    apply (LB (Z.of_nat (S j))); [lia|exact H].
Qed.
Lemma nth_range : forall a b N k, (k < N)%nat -> nth_error (create_range a b N) k = Some ((1 / inject_Z (Z.of_nat N - 1)) * (b - a) * inject_Z (Z.of_nat k) + a).
Proof.
  intros a b N k K. unfold create_range. rewrite nth_error_map.
  rewrite (nth_error_nth' _ 0%nat) by (rewrite seq_length; exact K). rewrite seq_nth by exact K. reflexivity.
Qed.
Lemma nth_firstn {A} : forall (l : list A) n k, (k < n)%nat -> nth_error (firstn n l) k = nth_error l k.
Proof. induction l as [|x l IH]; intros [|n] [|k] K; try lia; try reflexivity. cbn. apply IH. lia. Qed.
Lemma nth_combine {A B} : forall (l : list A) (m : list B) k x y, nth_error l k = Some x -> nth_error m k = Some y -> nth_error (combine l m) k = Some (x, y).
Proof.
  induction l as [|a l IH]; intros [|b m] [|k] x y H1 H2; cbn in *; try congruence. apply IH; assumption.
Qed.
Lemma segment_nth : forall p q k j, (j < k + 1)%nat ->
  nth_error (map Some (combine (firstn (k + 1) (create_range (fst p) (fst q) (k + 2))) (firstn (k + 1) (create_range (snd p) (snd q) (k + 2))))) j =
  Some (Some ((1 / inject_Z (Z.of_nat (k + 2) - 1)) * (fst q - fst p) * inject_Z (Z.of_nat j) + fst p,
              (1 / inject_Z (Z.of_nat (k + 2) - 1)) * (snd q - snd p) * inject_Z (Z.of_nat j) + snd p)).
Proof.
  intros p q k j J. rewrite nth_error_map.
  erewrite nth_combine; [reflexivity| |]; (rewrite nth_firstn by lia; apply nth_range; lia).
Qed.
Lemma segment_shape : forall d p q, 0 < d -> exists a' mids, segment (Some p) (Some q) (nin_of d (Some p) (Some q) true) = a' :: mids /\
  row_eq (Some p) a' /\ fewest_pieces d p q (length mids) /\ equal_pieces p q mids.
Proof.
  intros d p q D. unfold nin_of. cbn [negb segment].
  pose proof (pieces_needed d p q D) as F. cbv zeta in F.
  set (z := if (_ <? 0)%Z then 0%Z else _) in *.
  destruct (Z.eqb_spec z 0) as [Z0|Z0].
  - exists (Some p), []. split; [reflexivity|]. split; [apply row_eq_refl|]. rewrite Z0 in F. split; [exact F|].
    intros [|j] r H; discriminate.
  - set (k := Z.to_nat z) in *. pose proof (segment_nth p q k) as N.
    set (l := map Some _) in *. assert (LL : length l = (k + 1)%nat).
    { unfold l. rewrite map_length, combine_length, !firstn_length. unfold create_range. rewrite !map_length, !seq_length. lia. }
    destruct l as [|a' mids]; [cbn in LL; lia|]. exists a', mids. split; [reflexivity|]. cbn [length] in LL.
    assert (LM : length mids = k) by lia. unfold row, point in *.
    split; [|split; [rewrite LM; exact F|]].
    + specialize (N 0%nat ltac:(lia)). cbn [nth_error] in N. injection N as ->. cbn [row_eq]. split; cbn [fst snd]; change (inject_Z (Z.of_nat 0)) with 0; ring.
    + intros j r H. assert (H' : (j < length mids)%nat) by (apply nth_error_Some; congruence). specialize (N (S j) ltac:(lia)). cbn [nth_error] in N.
      rewrite N in H. match type of H with Some ?v = Some _ => assert (Hr : r = v) by congruence end. clear H N. subst r. eexists. split; [reflexivity|].
      replace (Z.of_nat (k + 2) - 1)%Z with (Z.of_nat (S (length mids))) by lia.
      assert (NZ : ~ inject_Z (Z.of_nat (S (length mids))) == 0).
      { intro E. change 0 with (inject_Z 0) in E. unfold Qeq in E. cbn in E. lia. }
      unfold along, frac. revert NZ. generalize (inject_Z (Z.of_nat (S (length mids)))) (inject_Z (Z.of_nat (S j))). intros n m NZ.
      split; cbn [fst snd]; field; exact NZ.
Qed.
Lemma densified_pieces : forall d poly mask, 0 < d -> length mask = length poly -> poly <> [] ->
  densified d poly mask (pieces poly (nin_all d poly mask) ++ [last poly None]).
Proof.
  intros d poly mask D. revert mask. induction poly as [|a [|b t] IH]; intros [|m [|m' ms]] L N; try (cbn in L; lia); try congruence.
  - cbn. constructor. apply row_eq_refl.
  - change (pieces (a :: b :: t) (nin_all d (a :: b :: t) (m :: m' :: ms))) with
      (segment a b (nin_of d a b m') ++ pieces (b :: t) (nin_all d (b :: t) (m' :: ms))).
    change (last (a :: b :: t) None) with (last (b :: t) None). rewrite <- app_assoc.
    specialize (IH (m' :: ms) ltac:(cbn in *; lia) ltac:(discriminate)).
    destruct m'.
    + destruct a as [p|].
      * destruct b as [q|].
        -- destruct (segment_shape d p q D) as (a' & mids & E & R1 & R2 & R3). unfold row, point in *. rewrite E. cbn [app]. apply dens_cut; assumption.
        -- cbn [nin_of negb segment app]. apply dens_keep; auto using row_eq_refl.
      * cbn [nin_of negb segment app]. apply dens_keep; auto using row_eq_refl.
    + assert (E : segment a b (nin_of d a b false) = [a]) by (unfold segment, nin_of; cbn; destruct a; [destruct b|]; reflexivity).
      rewrite E. cbn [app]. apply dens_keep; auto using row_eq_refl.
Qed.
Lemma densify_densified : forall d poly mask, 0 < d -> length mask = length poly -> densified d poly mask (densify poly d mask).
Proof.
  intros d poly mask D L. destruct poly as [|a t].
  - destruct mask; [|discriminate]. constructor.
  - rewrite densify_all by (auto; discriminate). apply densified_pieces; auto; discriminate.
Qed.
Lemma pt_eq_sym : forall p q, pt_eq p q -> pt_eq q p. Proof. intros p q [A B]; split; symmetry; assumption. Qed.
Lemma pt_eq_trans : forall p q r, pt_eq p q -> pt_eq q r -> pt_eq p r. Proof. intros p q r [A B] [C D]; split; etransitivity; eassumption. Qed.
Lemma densified_hd : forall d poly mask out, densified d poly mask out -> forall r, nth_error poly 0 = Some r -> exists r', nth_error out 0 = Some r' /\ row_eq r r'.
Proof. intros d poly mask out H. destruct H; intros r0 E; cbn in E; [discriminate| | |]; injection E as <-; eexists; split; try reflexivity; assumption. Qed.
Lemma densified_kept : forall d poly mask out, densified d poly mask out -> kept poly out.
Proof.
  induction 1 as [| | |p a' q rest m ms mids out E F P D IH]; try (constructor; auto; fail); [constructor; [assumption|constructor]|].
  apply kept_take; [exact E|]. clear F P. induction mids as [|x mids IHm]; [exact IH|]. cbn. apply kept_skip. exact IHm.
Qed.
Lemma densified_nans : forall d poly mask out, densified d poly mask out -> length (filter is_nan out) = length (filter is_nan poly).
Proof.
  assert (N : forall a b, row_eq a b -> is_nan b = is_nan a) by (intros [p|] [q|]; cbn; intuition).
  assert (C : forall x l, filter is_nan (x :: l) = if is_nan x then x :: filter is_nan l else filter is_nan l) by reflexivity.
  induction 1 as [|r r' m E|a a' b rest m m' ms out E O D IH|p a' q rest m ms mids out E F P D IH].
  - reflexivity.
  - rewrite !C, (N _ _ E). destruct (is_nan r); reflexivity.
  - rewrite (C a), (C a'), (N _ _ E). destruct (is_nan a); cbn [length]; unfold row, point in *; rewrite IH; reflexivity.
  - rewrite (C (Some p)), (C a'), (N _ _ E). cbn [is_nan]. unfold row, point in *. rewrite <- IH, filter_app, app_length.
    assert (M0 : length (filter is_nan mids) = 0%nat); [|unfold row, point in *; lia].
    clear - P. assert (A : forall j r, nth_error mids j = Some r -> exists m, r = Some m) by (intros j r H; destruct (P j r H) as (m & -> & _); eauto).
    clear P. induction mids as [|x mids IH]; [reflexivity|]. destruct (A 0%nat x eq_refl) as [m ->]. cbn. apply IH. intros j r H. exact (A (S j) r H).
Qed.
Lemma nth_cut : forall p q a' mids out r', row_eq (Some p) a' -> equal_pieces p q mids -> nth_error out 0 = Some r' -> row_eq (Some q) r' ->
  forall j, (j <= S (length mids))%nat -> exists m, nth_error (a' :: mids ++ out) j = Some (Some m) /\ pt_eq m (along p q (frac j (S (length mids)))).
Proof.
  intros p q a' mids out r' A P O R j J.
  assert (NZ : ~ inject_Z (Z.of_nat (S (length mids))) == 0).
  { intro E. change 0 with (inject_Z 0) in E. unfold Qeq in E. cbn in E. lia. }
  destruct j as [|j].
  - destruct a' as [p'|]; [|contradiction]. exists p'. split; [reflexivity|]. cbn in A. eapply pt_eq_trans; [apply pt_eq_sym; exact A|].
    unfold along, frac. change (inject_Z (Z.of_nat 0)) with 0. split; cbn [fst snd]; field; exact NZ.
  - cbn [nth_error]. destruct (Nat.eq_dec j (length mids)) as [->|N].
    + rewrite nth_error_app2, Nat.sub_diag by lia. destruct r' as [q'|]; [|contradiction]. exists q'. split; [exact O|].
      eapply pt_eq_trans; [apply pt_eq_sym; exact R|]. unfold along, frac. revert NZ. generalize (inject_Z (Z.of_nat (S (length mids)))). intros n NZ.
      split; cbn [fst snd]; field; exact NZ.
    + rewrite nth_error_app1 by lia. destruct (nth_error mids j) as [r|] eqn:E; [|apply nth_error_None in E; lia].
      destruct (P j r E) as (m & -> & Em). exists m. split; [reflexivity|exact Em].
Qed.
Lemma span_piece : forall d p q k j m m', span_le p q (inject_Z (Z.of_nat (S k)) * d) ->
  pt_eq m (along p q (frac j (S k))) -> pt_eq m' (along p q (frac (S j) (S k))) -> span_le m m' d.
Proof.
  intros d p q k j m m' [S1 S2] [E1 E2] [E3 E4]. unfold along, frac in *. cbn [fst snd] in *.
  assert (N0 : 0 < inject_Z (Z.of_nat (S k))) by (change 0 with (inject_Z 0); rewrite <- Zlt_Qlt; lia).
  assert (SJ : inject_Z (Z.of_nat (S j)) == inject_Z (Z.of_nat j) + 1).
  { rewrite Nat2Z.inj_succ. unfold Z.succ. rewrite inject_Z_plus. reflexivity. }
  revert S1 S2 E1 E2 E3 E4 N0 SJ. generalize (inject_Z (Z.of_nat (S k))) (inject_Z (Z.of_nat (S j))) (inject_Z (Z.of_nat j)).
  intros n j' jj S1 S2 E1 E2 E3 E4 N0 SJ.
  assert (G : forall u v, Qabs (v - u) <= n * d -> Qabs ((u + j' / n * (v - u)) - (u + jj / n * (v - u))) <= d).
  { intros u v H. setoid_replace (u + j' / n * (v - u) - (u + jj / n * (v - u))) with ((v - u) / n) by (rewrite SJ; field; lra).
    unfold Qdiv. rewrite Qabs_Qmult. rewrite (Qabs_pos (/ n)) by (apply Qlt_le_weak, Qinv_lt_0_compat; exact N0).
    apply Qmult_le_r with (z := n); [exact N0|]. setoid_replace (Qabs (v - u) * / n * n) with (Qabs (v - u)) by (field; lra). lra. }
  split; [rewrite E1, E3|rewrite E2, E4]; apply G; assumption.
Qed.
Lemma densified_gap : forall d poly mask out, densified d poly mask out ->
  forall i p q, nth_error out i = Some (Some p) -> nth_error out (S i) = Some (Some q) ->
  span_le p q d \/ exists k p' q', nth_error poly k = Some (Some p') /\ nth_error poly (S k) = Some (Some q') /\ nth_error mask (S k) = Some false /\ pt_eq p p' /\ pt_eq q q'.
Proof.
  induction 1 as [|r r' m E|a a' b rest m m' ms out E O D IH|p0 a' q0 rest m ms mids out E F P D IH]; intros i p q H1 H2.
  - destruct i; discriminate.
  - destruct i as [|[|i]]; discriminate.
  - destruct i as [|i].
    + destruct (densified_hd _ _ _ _ D b eq_refl) as (r' & R1 & R2). cbn in H1. change (nth_error out 0 = Some (Some q)) in H2. rewrite R1 in H2. injection H1 as ->. injection H2 as ->.
      destruct a as [p'|]; [|contradiction]. destruct b as [q'|]; [|contradiction]. cbn in E, R2.
      destruct O as [->|[O|O]]; [|discriminate|discriminate]. right. exists 0%nat, p', q'. repeat split; try reflexivity; symmetry; apply E || apply R2.
    + destruct (IH i p q H1 H2) as [S|(k & p' & q' & K1 & K2 & K3 & K4)]; [left; exact S|right; exists (S k), p', q'; auto].
  - destruct (densified_hd _ _ _ _ D (Some q0) eq_refl) as (r' & R1 & R2).
    destruct (le_lt_dec (S i) (S (length mids))) as [L|L].
    + left. destruct (nth_cut p0 q0 a' mids out r' E P R1 R2 i ltac:(lia)) as (u & U1 & U2).
      destruct (nth_cut p0 q0 a' mids out r' E P R1 R2 (S i) L) as (v & V1 & V2).
      rewrite U1 in H1. rewrite V1 in H2. injection H1 as <-. injection H2 as <-. eapply span_piece; [exact (proj1 F)|exact U2|exact V2].
    + destruct i as [|i]; [lia|]. change (nth_error (mids ++ out) i = Some (Some p)) in H1. change (nth_error (mids ++ out) (S i) = Some (Some q)) in H2.
      rewrite nth_error_app2 in H1, H2 by lia.
      replace (S i - length mids)%nat with (S (i - length mids)) in H2 by lia.
      destruct (IH _ p q H1 H2) as [S|(k & p' & q' & K1 & K2 & K3 & K4)]; [left; exact S|right; exists (S k), p', q'; auto].
Qed.
Lemma densify_total : forall d poly mask, 0 < d -> length mask = length poly ->
  densified d poly mask (densify poly d mask) /\ kept poly (densify poly d mask) /\
  length (filter is_nan (densify poly d mask)) = length (filter is_nan poly) /\
  (forall i p q, nth_error (densify poly d mask) i = Some (Some p) -> nth_error (densify poly d mask) (S i) = Some (Some q) ->
     span_le p q d \/ exists k p' q', nth_error poly k = Some (Some p') /\ nth_error poly (S k) = Some (Some q') /\ nth_error mask (S k) = Some false /\ pt_eq p p' /\ pt_eq q q').
Proof.
  intros d poly mask D L. pose proof (densify_densified d poly mask D L) as H.
  repeat split; [exact H|eapply densified_kept; eassumption|eapply densified_nans; eassumption|eapply densified_gap; eassumption].
Qed.

(** * C45 *)
Lemma nth_twice {A} : forall (l : list A) i, nth_error (twice l) (2 * i) = nth_error l i /\ nth_error (twice l) (2 * i + 1) = nth_error l i.
Proof.
  induction l as [|x l IH]; intro i; [split; [destruct (2 * i)%nat; destruct i|destruct (2 * i + 1)%nat eqn:E; destruct i]; reflexivity|].
  destruct i as [|i]; [split; reflexivity|]. replace (2 * S i)%nat with (S (S (2 * i))) by lia. destruct (IH i) as [A1 A2]. split; [exact A1|exact A2].
Qed.
Lemma twice_length {A} : forall l : list A, length (twice l) = (2 * length l)%nat.
Proof. induction l as [|x l IH]; [reflexivity|]. cbn [twice flat_map app length]. unfold twice in IH. rewrite IH. lia. Qed.
Lemma mix_self : forall p, pt_eq (mix p p) p.
Proof. intro p. split; cbn; field. Qed.
Lemma mix_along : forall p q, pt_eq (mix p q) (along p q (1 # 4)) /\ pt_eq (mix q p) (along p q (3 # 4)).
Proof. intros p q. repeat split; cbn; field. Qed.
Lemma last_nth_error {A} : forall (l : list A) d, l <> [] -> nth_error l (length l - 1) = Some (last l d).
Proof.
  induction l as [|x [|y l] IH]; intros d N; [congruence|reflexivity|]. change (last (x :: y :: l) d) with (last (y :: l) d).
  rewrite <- IH by discriminate. cbn [length]. replace (S (S (length l)) - 1)%nat with (S (S (length l) - 1)) by lia. reflexivity.
Qed.
(** Position [j] of one pass. *)
Lemma pass_nth : forall ps qs j a b, chaikin_pass ps = Ok qs -> nth_error (twice ps) j = Some a ->
  nth_error (twice ps) (if (j =? 0)%nat then 0%nat else if (j =? 2 * length ps - 1)%nat then (2 * length ps - 1)%nat else if Nat.even j then (j - 1)%nat else (j + 1)%nat) = Some b ->
  nth_error qs j = Some (mix a b).
Proof.
  intros ps qs j a b H A B. destruct ps as [|p0 ps]; [discriminate|]. cbn [chaikin_pass] in H. set (L := twice (p0 :: ps)) in *.
  assert (LL : length L = (2 * length (p0 :: ps))%nat) by apply twice_length.
  match type of H with Ok ?v = Ok _ => assert (E : qs = v) by congruence end. clear H. subst qs. rewrite nth_error_map.
  assert (JL : (j < length L)%nat) by (apply nth_error_Some; congruence).
  erewrite nth_combine; [reflexivity|exact A|].
  rewrite nth_error_map, (nth_error_nth' _ 0%nat) by (rewrite seq_length; exact JL). rewrite seq_nth by exact JL. cbn [option_map Nat.add]. f_equal.
  rewrite <- LL in B. destruct (Nat.eqb_spec j 0); [apply nth_error_nth; exact B|].
  destruct (Nat.eqb_spec j (length L - 1)); [|destruct (Nat.even j); apply nth_error_nth; exact B].
  rewrite (last_nth_error L p0) in B by (intro E; rewrite E in JL; cbn in JL; lia). congruence.
Qed.
Lemma pass_length : forall ps qs, chaikin_pass ps = Ok qs -> length qs = (2 * length ps)%nat.
Proof.
  intros [|p0 ps] qs H; [discriminate|]. cbn [chaikin_pass] in H. set (L := twice (p0 :: ps)) in *.
  assert (LL : length L = (2 * length (p0 :: ps))%nat) by apply twice_length.
  match type of H with Ok ?v = Ok _ => assert (E : qs = v) by congruence end. rewrite E. rewrite map_length, combine_length, map_length, seq_length. lia.
Qed.
Lemma pass_cut : forall ps qs, chaikin_pass ps = Ok qs -> corner_cut ps qs.
Proof.
  intros ps qs H. unfold point in *. assert (L : length qs = (2 * length ps)%nat) by (apply pass_length; exact H).
  split; [exact L|]. repeat split.
  - intros p E. exists (mix p p). split; [|apply mix_self].
    assert (nth_error (twice ps) 0 = Some p) by (rewrite <- E; exact (proj1 (nth_twice ps 0))).
    eapply pass_nth; [exact H|eassumption|cbn [Nat.eqb]; assumption].
  - intros p E. assert (P : (0 < length ps)%nat) by (destruct ps; [discriminate|cbn; lia]).
    assert (T : nth_error (twice ps) (2 * length ps - 1) = Some p).
    { rewrite <- E. replace (2 * length ps - 1)%nat with (2 * (length ps - 1) + 1)%nat by lia. apply nth_twice. }
    exists (mix p p). split; [|apply mix_self]. eapply pass_nth; [exact H|exact T|]. unfold point in *.
    destruct (Nat.eqb_spec (2 * length ps - 1) 0); [lia|]. rewrite Nat.eqb_refl. exact T.
  - exists (mix p p'). split; [|apply mix_along].
    assert (I : (S i < length ps)%nat) by (apply nth_error_Some; congruence).
    eapply pass_nth; [exact H|eapply eq_trans; [exact (proj2 (nth_twice ps i))|eassumption]|]. unfold point in *.
    destruct (Nat.eqb_spec (2 * i + 1) 0); [lia|]. destruct (Nat.eqb_spec (2 * i + 1) (2 * length ps - 1)); [lia|].
    replace (Nat.even (2 * i + 1)) with false by (symmetry; rewrite Nat.add_1_r, Nat.even_succ, Nat.odd_mul; reflexivity).
    replace (2 * i + 1 + 1)%nat with (2 * (S i))%nat by lia. exact (eq_trans (proj1 (nth_twice ps (S i))) ltac:(eassumption)).
  - exists (mix p' p). split; [|apply mix_along].
    assert (I : (S i < length ps)%nat) by (apply nth_error_Some; congruence).
    eapply pass_nth; [exact H|replace (2 * i + 2)%nat with (2 * (S i))%nat by lia; eapply eq_trans; [exact (proj1 (nth_twice ps (S i)))|eassumption]|]. unfold point in *.
    destruct (Nat.eqb_spec (2 * i + 2) 0); [lia|]. destruct (Nat.eqb_spec (2 * i + 2) (2 * length ps - 1)); [lia|].
    replace (Nat.even (2 * i + 2)) with true by (symmetry; replace (2 * i + 2)%nat with (2 * (S i))%nat by lia; rewrite Nat.even_mul; reflexivity).
    replace (2 * i + 2 - 1)%nat with (2 * i + 1)%nat by lia. exact (eq_trans (proj2 (nth_twice ps i)) ltac:(eassumption)).
Qed.
Lemma chaikin_ok : forall k ps, ps <> [] -> exists qs, chaikin k ps = Ok qs /\ corners_cut k ps qs.
Proof.
  induction k as [|k IH]; intros ps N; [exists ps; split; [reflexivity|constructor]|].
  cbn [chaikin]. destruct (chaikin_pass ps) as [c|e|] eqn:E; [|destruct ps; [congruence|discriminate]|destruct ps; [congruence|discriminate]].
  pose proof (pass_length _ _ E) as L. destruct (IH c) as (qs & Q1 & Q2); [intros ->; destruct ps; [congruence|cbn in L; lia]|].
  exists qs. split; [exact Q1|]. econstructor; [apply pass_cut; exact E|exact Q2].
Qed.
Lemma chaikin_empty : forall k, chaikin (S k) [] = Raise IndexError. Proof. reflexivity. Qed.
(** Consequences of cutting corners, from the specification alone. *)
Lemma hull_trans : forall a b c, in_hull a b -> in_hull b c -> in_hull a c.
Proof. intros a b c H K u v w L q I. eapply K; [|exact I]. intros p P. eapply H; eassumption. Qed.
Lemma hull_along : forall (ps : list (Q * Q)) p q t a b c, 0 <= t <= 1 -> (forall r, In r ps -> a * fst r + b * snd r <= c) -> In p ps -> In q ps ->
  a * fst (along p q t) + b * snd (along p q t) <= c.
Proof.
  intros ps p q t a b c [T0 T1] H P Q. apply H in P. apply H in Q. unfold along. cbn [fst snd].
  setoid_replace (a * (fst p + t * (fst q - fst p)) + b * (snd p + t * (snd q - snd p))) with
    ((1 - t) * (a * fst p + b * snd p) + t * (a * fst q + b * snd q)) by ring.
  setoid_replace c with ((1 - t) * c + t * c) by ring.
  apply Qplus_le_compat; [rewrite !(Qmult_comm (1 - t))|rewrite !(Qmult_comm t)]; (apply Qmult_le_compat_r; [assumption|lra]).
Qed.
Lemma cut_hull : forall ps qs, corner_cut ps qs -> in_hull ps qs.
Proof.
  intros ps qs (L & F & E & M) a b c H q I. apply In_nth_error in I. destruct I as [j J].
  assert (JL : (j < 2 * length ps)%nat) by (rewrite <- L; apply nth_error_Some; congruence).
  assert (X : forall q' r, nth_error qs j = Some q' -> pt_eq q' r -> a * fst r + b * snd r <= c -> a * fst q + b * snd q <= c).
  { intros q' r E1 [E2 E3] E4. assert (q' = q) by congruence. subst q'. rewrite E2, E3. exact E4. }
  destruct (Nat.eq_dec j 0) as [->|N0].
  { destruct (nth_error ps 0) as [p|] eqn:P; [|apply nth_error_None in P; lia]. destruct (F p eq_refl) as (q' & Q1 & Q2).
    apply (X q' p Q1 Q2). apply H. eapply nth_error_In; exact P. }
  destruct (Nat.eq_dec j (2 * length ps - 1)) as [->|N1].
  { destruct (nth_error ps (length ps - 1)) as [p|] eqn:P; [|apply nth_error_None in P; lia]. destruct (E p eq_refl) as (q' & Q1 & Q2).
    apply (X q' p Q1 Q2). apply H. eapply nth_error_In; exact P. }
  assert (K : exists i, (S i < length ps)%nat /\ (j = 2 * i + 1 \/ j = 2 * i + 2)%nat).
  { exists ((j - 1) / 2)%nat. pose proof (Nat.div_mod (j - 1) 2 ltac:(lia)). pose proof (Nat.mod_upper_bound (j - 1) 2 ltac:(lia)). lia. }
  destruct K as (i & I1 & I2).
  destruct (nth_error ps i) as [p|] eqn:P; [|apply nth_error_None in P; lia].
  destruct (nth_error ps (S i)) as [p'|] eqn:P'; [|apply nth_error_None in P'; lia].
  destruct (M i p p' P P') as [(q1 & Q1 & Q2) (q2 & Q3 & Q4)].
  destruct I2 as [->| ->]; [apply (X q1 _ Q1 Q2)|apply (X q2 _ Q3 Q4)];
    (apply (hull_along ps); [split; unfold Qle; cbn; lia|exact H|eapply nth_error_In; eassumption|eapply nth_error_In; eassumption]).
Qed.
Lemma cuts_facts : forall k ps qs, corners_cut k ps qs -> ps <> [] ->
  length qs = (length ps * 2 ^ k)%nat /\ in_hull ps qs /\
  (exists p q, nth_error ps 0 = Some p /\ nth_error qs 0 = Some q /\ pt_eq q p) /\
  (exists p q, nth_error ps (length ps - 1) = Some p /\ nth_error qs (length qs - 1) = Some q /\ pt_eq q p).
Proof.
  induction 1 as [ps|k ps qs rs C Cs IH]; intro N.
  - split; [cbn; lia|]. split; [intros a b c H q I; apply H; exact I|]. destruct ps as [|p ps]; [congruence|].
    split; [exists p, p; auto using pt_eq_refl|]. exists (last (p :: ps) p), (last (p :: ps) p).
    rewrite (last_nth_error (p :: ps) p) by discriminate. auto using pt_eq_refl.
  - assert (P : (0 < length ps)%nat) by (destruct ps; [congruence|cbn; lia]).
    pose proof C as (L & F & E & M). destruct IH as (I1 & I2 & (p & q & I3 & I4 & I5) & (p' & q' & I6 & I7 & I8)); [intros ->; cbn in L; lia|].
    split; [rewrite I1, L; cbn [Nat.pow]; lia|]. split; [eapply hull_trans; [apply cut_hull; exact C|exact I2]|]. split.
    + destruct (nth_error ps 0) as [a|] eqn:A; [|apply nth_error_None in A; lia]. destruct (F a eq_refl) as (b & B1 & B2).
      exists a, q. split; [reflexivity|]. split; [exact I4|]. assert (b = p) by congruence. subst b. eapply pt_eq_trans; eassumption.
    + destruct (nth_error ps (length ps - 1)) as [a|] eqn:A; [|apply nth_error_None in A; lia]. destruct (E a eq_refl) as (b & B1 & B2).
      exists a, q'. split; [reflexivity|]. split; [exact I7|]. rewrite L in I6. assert (b = p') by congruence. subst b. eapply pt_eq_trans; eassumption.
Qed.
Lemma hull_box : forall ps qs xmin xmax ymin ymax, in_hull ps qs -> (forall p, In p ps -> xmin <= fst p <= xmax /\ ymin <= snd p <= ymax) ->
  forall q, In q qs -> xmin <= fst q <= xmax /\ ymin <= snd q <= ymax.
Proof.
  intros ps qs xmin xmax ymin ymax H B q I.
  pose proof (H 1 0 xmax ltac:(intros p P; destruct (B p P); lra) q I). pose proof (H (-1) 0 (- xmin) ltac:(intros p P; destruct (B p P); lra) q I).
  pose proof (H 0 1 ymax ltac:(intros p P; destruct (B p P); lra) q I). pose proof (H 0 (-1) (- ymin) ltac:(intros p P; destruct (B p P); lra) q I). lra.
Qed.
Lemma points_of_map : forall l, points_of (map Some l) = l.
Proof. induction l as [|x l IH]; [reflexivity|]. cbn. f_equal. exact IH. Qed.
Lemma smooth_ok : forall parts N, parts <> [] -> Forall part parts -> exists arr parts', smooth_shoreline (concat parts) N = Ok arr /\ convert_to_list arr = parts' /\
  Forall2 (fun p p' => exists ps qs, p = map Some ps ++ [None] /\ p' = map Some qs ++ [None] /\ corners_cut N ps qs) parts parts'.
Proof.
  intros parts N NE F. unfold smooth_shoreline, convert_to_list. cbn [clump_unmasked is_nan].
  pose proof (clump_parts parts F) as E. unfold row, point in *. rewrite E.
  assert (M : exists out, mapM (fun poly => let! tmp := chaikin N (points_of (removelast poly)) in Ok (map Some tmp ++ [None])) parts = Ok out /\ Forall part out /\
    Forall2 (fun p p' => exists ps qs, p = map Some ps ++ [None] /\ p' = map Some qs ++ [None] /\ corners_cut N ps qs) parts out).
  { clear NE E. induction F as [|p parts (q & qs & E) _ (out & IH1 & IH2 & IH3)]; [exists []; repeat split; constructor|].
    destruct (chaikin_ok N (q :: qs) ltac:(discriminate)) as (c & C1 & C2).
    assert (NC : c <> []).
    { intros ->. destruct (cuts_facts _ _ _ C2 ltac:(discriminate)) as (_ & _ & (a & b & _ & X & _) & _). discriminate. }
    exists ((map Some c ++ [None]) :: out). split; [|split].
    - cbn [mapM]. rewrite E, removelast_last, points_of_map. unfold point in *. rewrite C1. cbn [bind]. unfold row, point in *. rewrite IH1. reflexivity.
    - constructor; [|exact IH2]. destruct c as [|c0 c]; [congruence|]. exists c0, c. reflexivity.
    - constructor; [|exact IH3]. exists (q :: qs), c. auto. }
  destruct M as (out & M1 & M2 & M3). unfold row, point in *. rewrite M1. cbn [bind].
  assert (NO : out <> []) by (intros ->; inversion M3; subst; congruence).
  exists (concat out), out. split; [destruct out; [congruence|reflexivity]|]. split; [|exact M3].
  apply clump_parts; exact M2.
Qed.

(** * C46 *)
Lemma remove_dup_spec : forall arr r, remove_dup arr = Ok r -> exists last, nth_error arr (length arr - 1) = Some last /\
  r = filter (fun p => negb (Qeq_bool (fst p) (snd p))) arr ++ [last].
Proof.
  intros [|p0 arr] r H; [discriminate|]. cbn [remove_dup] in H. exists (last (p0 :: arr) p0).
  split; [apply last_nth_error; discriminate|]. match type of H with Ok ?v = Ok _ => assert (E : r = v) by congruence end. rewrite E. f_equal.
  apply filter_ext. intros [x y]. f_equal. cbn [fst snd]. apply eq_true_iff_eq. rewrite !Qeq_bool_iff. split; intro; lra.
Qed.
Lemma ring_seen_spec : forall arr, arr <> [] -> ring_seen arr = Ok (map Some (filter (fun p => negb (Qeq_bool (fst p) (snd p))) arr)).
Proof.
  intros arr N. unfold ring_seen. destruct (remove_dup arr) as [r| |] eqn:E; [|destruct arr; [congruence|discriminate]|destruct arr; [congruence|discriminate]].
  destruct (remove_dup_spec arr r E) as (l & _ & ->). cbn [bind]. f_equal. rewrite map_app, <- app_assoc. rewrite app_length. cbn [map app length].
  rewrite Nat.add_sub, firstn_app, Nat.sub_diag, firstn_all. apply app_nil_r.
Qed.
Lemma ring_kept : forall arr, arr <> [] -> (ring_seen arr = Ok (map Some arr) <-> forall p, In p arr -> ~ fst p == snd p).
Proof.
  intros arr N. rewrite (ring_seen_spec arr N). split.
  - intros H p I E. assert (F : filter (fun p => negb (Qeq_bool (fst p) (snd p))) arr = arr).
    { pose proof (f_equal (fun r => match r with Ok v => v | _ => [] end) H) as H'. cbv beta iota in H'.
      rewrite <- (points_of_map arr) at 2. rewrite <- H'. symmetry. apply points_of_map. }
    rewrite <- F in I. apply filter_In in I. destruct I as [_ I]. apply Qeq_bool_iff in E. rewrite E in I. discriminate.
  - intro H. apply f_equal, f_equal. induction arr as [|a arr IH]; [reflexivity|]. cbn [filter].
    destruct (Qeq_bool (fst a) (snd a)) eqn:E; [apply Qeq_bool_iff in E; destruct (H a (or_introl eq_refl) E)|]. cbn [negb]. f_equal.
    destruct arr as [|x arr]; [reflexivity|]. apply IH; [discriminate|]. intros p I. apply H. right; exact I.
Qed.
Lemma nonzero_spec : forall a arr, no_repeats_1d (a :: arr) (nonzero_diff (a :: arr) ++ [last (a :: arr) a]).
Proof.
  intros a arr. revert a. induction arr as [|b arr IH]; intro a; [constructor|].
  assert (L : last (a :: b :: arr) a = last (b :: arr) b).
  { change (last (a :: b :: arr) a) with (last (b :: arr) a). clear. revert b. induction arr as [|c arr IH]; intro b; [reflexivity|].
    change (last (b :: c :: arr) a) with (last (c :: arr) a). change (last (b :: c :: arr) b) with (last (c :: arr) b). rewrite IH.
    clear. revert c. induction arr as [|d arr IH]; intro c; [reflexivity|]. change (last (d :: arr) c = last (d :: arr) b).
    assert (G : forall (l : list Q) x y z, last (z :: l) x = last (z :: l) y); [|apply G].
    clear. induction l as [|w l IH]; intros x y z; [reflexivity|]. change (last (w :: l) x = last (w :: l) y). apply IH. }
  rewrite L. change (nonzero_diff (a :: b :: arr)) with (if Qeq_bool (b - a) 0 then nonzero_diff (b :: arr) else a :: nonzero_diff (b :: arr)).
  destruct (Qeq_bool (b - a) 0) eqn:E.
  - apply Qeq_bool_iff in E. apply nr1_drop; [lra|apply IH].
  - apply Qeq_bool_neq in E. cbn [app]. apply nr1_keep; [intro X; apply E; lra|apply IH].
Qed.
Lemma remove_dup_1d_spec : forall arr, arr <> [] -> exists r, remove_dup_1d arr = Ok r /\ no_repeats_1d arr r.
Proof. intros [|a arr] N; [congruence|]. eexists. split; [reflexivity|apply nonzero_spec]. Qed.
Lemma no_repeats_fun : forall l r r', no_repeats l r -> no_repeats l r' -> r = r'.
Proof.
  intros l r r' H. revert r'. induction H; intros r' H'; inversion H'; subst; try reflexivity; try contradiction; auto. f_equal; auto.
Qed.
(** A square with a corner on the diagonal and a repeated corner. *)
Definition lagoon : list point := [(0, 1); (2, 1); (2, 2); (2, 3); (2, 3); (0, 3); (0, 1)].
Lemma remove_dup_refuted : exists arr r, remove_dup arr = Ok r /\ ~ no_repeats arr r /\
  (exists p, In p arr /\ ~ exists q, In q r /\ pt_eq p q) /\ (exists i p, nth_error r i = Some p /\ nth_error r (S i) = Some p).
Proof.
  exists lagoon. eexists. split; [reflexivity|]. split; [|split].
  - intro H. assert (N : no_repeats lagoon [(0, 1); (2, 1); (2, 2); (2, 3); (0, 3); (0, 1)]).
    { unfold lagoon. apply nr_keep; [intros [A B]; discriminate|]. apply nr_keep; [intros [A B]; discriminate|]. apply nr_keep; [intros [A B]; discriminate|].
      apply nr_drop; [apply pt_eq_refl|]. apply nr_keep; [intros [A B]; discriminate|]. apply nr_keep; [intros [A B]; discriminate|]. constructor. }
    pose proof (no_repeats_fun _ _ _ H N) as E. vm_compute in E. discriminate.
  - exists (2, 2). split; [right; right; left; reflexivity|]. intros (q & I & [A B]). vm_compute in I.
    repeat (destruct I as [<-|I]; [vm_compute in A, B; discriminate|]). exact I.
  - exists 2%nat, (2, 3). split; reflexivity.
Qed.

(** * C47 *)
Lemma det_turn : forall a b c, det3 a b c == turn a b c.
Proof. intros a b c. unfold det3, turn. ring. Qed.
Lemma isclose_iff : forall d, isclose0 d = true <-> Qabs d <= 1 # 100000000.
Proof. intro d. unfold isclose0. apply Qle_bool_iff. Qed.
Lemma isclose_det : forall a b c, isclose0 (det3 a b c) = true <-> flat a b c.
Proof. intros a b c. rewrite isclose_iff. unfold flat. rewrite (det_turn a b c). reflexivity. Qed.
Lemma orient_stop : forall p d, isclose0 d = false -> orient p d = d.
Proof. intros [|a p] d H; cbn [orient]; rewrite H; reflexivity. Qed.
Lemma orient_step : forall a b c e p d, isclose0 d = true -> orient (a :: b :: c :: e :: p) d = orient (b :: c :: e :: p) (det3 a b c).
Proof. intros a b c e p d H. cbn [orient]. rewrite H. reflexivity. Qed.
(** The loop ends with the first triple that is not flat, or with a flat one when all are. *)
Lemma orient_spec : forall p d, isclose0 d = true ->
  (exists i a b c, (i + 3 < length p)%nat /\ nth_error p i = Some a /\ nth_error p (i + 1) = Some b /\ nth_error p (i + 2) = Some c /\ ~ flat a b c /\ orient p d = det3 a b c /\
     forall j a' b' c', (j < i)%nat -> nth_error p j = Some a' -> nth_error p (j + 1) = Some b' -> nth_error p (j + 2) = Some c' -> flat a' b' c') \/
  (isclose0 (orient p d) = true /\ forall j a' b' c', (j + 3 < length p)%nat -> nth_error p j = Some a' -> nth_error p (j + 1) = Some b' -> nth_error p (j + 2) = Some c' -> flat a' b' c').
Proof.
  induction p as [|a p IH]; intros d D.
  - right. cbn [orient]. rewrite D. split; [exact D|]. intros j a' b' c' J. cbn in J. lia.
  - destruct p as [|b [|c [|e p]]].
    1-3: right; cbn [orient]; rewrite D; split; [exact D|]; intros j a' b' c' J; cbn in J; lia.
    rewrite orient_step by exact D. destruct (isclose0 (det3 a b c)) eqn:E.
    + destruct (IH _ E) as [(i & a' & b' & c' & I1 & I2 & I3 & I4 & I5 & I6 & I7)|[I1 I2]].
      * left. exists (S i), a', b', c'. split; [cbn [length] in *; lia|]. split; [exact I2|]. split; [exact I3|]. split; [exact I4|]. split; [exact I5|]. split; [exact I6|].
        intros [|j] a2 b2 c2 J J1 J2 J3; [|exact (I7 j a2 b2 c2 ltac:(lia) J1 J2 J3)].
        cbn in J1, J2, J3. injection J1 as <-. injection J2 as <-. injection J3 as <-. apply isclose_det. exact E.
      * right. split; [exact I1|]. intros [|j] a2 b2 c2 J J1 J2 J3; [|apply (I2 j a2 b2 c2); [cbn [length] in *; lia|exact J1|exact J2|exact J3]].
        cbn in J1, J2, J3. injection J1 as <-. injection J2 as <-. injection J3 as <-. apply isclose_det. exact E.
    + left. rewrite orient_stop by exact E. exists 0%nat, a, b, c. split; [cbn [length]; lia|]. repeat split; try reflexivity.
      * intro F. apply isclose_det in F. congruence.
      * intros j a' b' c' J. lia.
Qed.
Lemma zero_close : isclose0 0 = true. Proof. reflexivity. Qed.
Lemma not_flat_sign : forall a b c, ~ flat a b c -> (negb (Qle_bool (det3 a b c) 0) = true <-> 0 < turn a b c) /\ (negb (Qle_bool (det3 a b c) 0) = false <-> turn a b c < 0).
Proof.
  intros a b c F. pose proof (det_turn a b c) as E.
  assert (N : ~ turn a b c == 0). { intro Z. apply F. unfold flat. rewrite Z. unfold Qle; cbn; lia. }
  destruct (Qle_bool (det3 a b c) 0) eqn:L; cbn [negb].
  - apply Qle_bool_iff in L. rewrite E in L. split; split; intro H; try discriminate; try reflexivity; [lra|].
    destruct (Qle_lt_or_eq _ _ L) as [X|X]; [exact X|contradiction].
  - assert (~ det3 a b c <= 0) by (rewrite <- Qle_bool_iff; congruence). rewrite E in H. split; split; intro X; try discriminate; try reflexivity; lra.
Qed.
Lemma ccw_decides : forall ps b, is_path_ccw ps = Ok b <->
  exists i p q r, (i + 3 < length ps)%nat /\ nth_error ps i = Some p /\ nth_error ps (i + 1) = Some q /\ nth_error ps (i + 2) = Some r /\ ~ flat p q r /\
    (forall j p' q' r', (j < i)%nat -> nth_error ps j = Some p' -> nth_error ps (j + 1) = Some q' -> nth_error ps (j + 2) = Some r' -> flat p' q' r') /\
    (if b then 0 < turn p q r else turn p q r < 0).
Proof.
  intros ps b. unfold is_path_ccw. destruct (orient_spec ps 0 zero_close) as [(i & p & q & r & I1 & I2 & I3 & I4 & I5 & I6 & I7)|[I1 I2]].
  - rewrite I6. assert (C : isclose0 (det3 p q r) = false) by (apply not_true_iff_false; rewrite isclose_det; exact I5). rewrite C.
    pose proof (not_flat_sign p q r I5) as [S1 S2]. split.
    + intro H. exists i, p, q, r. repeat split; auto. assert (negb (Qle_bool (det3 p q r) 0) = b) as <- by congruence.
      destruct (negb (Qle_bool (det3 p q r) 0)); [apply S1; reflexivity|apply S2; reflexivity].
    + intros (i' & p' & q' & r' & J1 & J2 & J3 & J4 & J5 & J6 & J7).
      assert (i = i').
      { destruct (lt_eq_lt_dec i i') as [[L|L]|L]; [|exact L|].
        - destruct I5. apply (J6 i p q r L I2 I3 I4).
        - destruct J5. apply (I7 i' p' q' r' L J2 J3 J4). }
      subst i'. unfold point in *. assert (p' = p) by congruence. assert (q' = q) by congruence. assert (r' = r) by congruence. subst. f_equal. destruct b; [apply S1|apply S2]; exact J7.
  - rewrite I1. split; [discriminate|]. intros (i' & p' & q' & r' & J1 & J2 & J3 & J4 & J5 & _). destruct J5. apply (I2 i' p' q' r' J1 J2 J3 J4).
Qed.
Lemma ccw_raises : forall ps, is_path_ccw ps = Raise RuntimeError <->
  forall i p q r, (i + 3 < length ps)%nat -> nth_error ps i = Some p -> nth_error ps (i + 1) = Some q -> nth_error ps (i + 2) = Some r -> flat p q r.
Proof.
  intros ps. unfold is_path_ccw. destruct (orient_spec ps 0 zero_close) as [(i & p & q & r & I1 & I2 & I3 & I4 & I5 & I6 & I7)|[I1 I2]].
  - rewrite I6. assert (C : isclose0 (det3 p q r) = false) by (apply not_true_iff_false; rewrite isclose_det; exact I5). rewrite C.
    split; [discriminate|]. intro H. destruct I5. eapply H; eassumption.
  - rewrite I1. split; [intros _; exact I2|reflexivity].
Qed.
(** The area as a fan around the first point. *)
Fixpoint fan (p : point) (l : list point) : Q := match l with a :: ((b :: _) as t) => turn p a b + fan p t | _ => 0 end.
Lemma fan_edges : forall l p a, edge_sum p (a :: l) == fan p (a :: l) + (fst a * snd p - fst p * snd a).
Proof.
  induction l as [|b l IH]; intros p a; [cbn; ring|].
  change (edge_sum p (a :: b :: l)) with ((fst a * snd b - fst b * snd a) + edge_sum p (b :: l)).
  change (fan p (a :: b :: l)) with (turn p a b + fan p (b :: l)). rewrite IH. unfold turn. ring.
Qed.
Lemma area_fan : forall p l, area2 (p :: l) == fan p (p :: l).
Proof. intros p l. unfold area2. rewrite fan_edges. ring. Qed.
Lemma fan_two : forall s p l, (forall i a b, nth_error l i = Some a -> nth_error l (i + 1) = Some b -> 0 <= s * turn p a b) ->
  0 <= s * fan p l /\ forall i a b c, nth_error l i = Some a -> nth_error l (i + 1) = Some b -> nth_error l (i + 2) = Some c -> s * (turn p a b + turn p b c) <= s * fan p l.
Proof.
  intros s p. induction l as [|a [|b l] IH]; intro H.
  - split; [cbn; lra|]. intros [|i] a b c X; discriminate.
  - split; [cbn; lra|]. intros [|i] a' b c X Y; [discriminate|destruct i; discriminate].
  - change (fan p (a :: b :: l)) with (turn p a b + fan p (b :: l)).
    destruct IH as [I1 I2]; [intros i u v; exact (H (S i) u v)|]. pose proof (H 0%nat a b eq_refl eq_refl) as H0.
    split; [lra|]. intros [|i] u v w U V W.
    + cbn in U, V, W. injection U as <-. injection V as <-. destruct l as [|c l]; [discriminate|]. cbn in W. injection W as <-.
      change (fan p (b :: c :: l)) with (turn p b c + fan p (c :: l)).
      assert (0 <= s * fan p (c :: l)).
      { clear - H. assert (G : forall l c, (forall i u v, nth_error (c :: l) i = Some u -> nth_error (c :: l) (i + 1) = Some v -> 0 <= s * turn p u v) -> 0 <= s * fan p (c :: l)).
        { clear. induction l as [|d l IH]; intros c H; [cbn; lra|]. change (fan p (c :: d :: l)) with (turn p c d + fan p (d :: l)).
          pose proof (H 0%nat c d eq_refl eq_refl). pose proof (IH d ltac:(intros i u v; exact (H (S i) u v))). lra. }
        apply G. intros i u v. exact (H (S (S i)) u v). }
      lra.
    + specialize (I2 i u v w U V W). lra.
Qed.
Lemma convex_area : forall s ps i a b c, s == 1 \/ s == -1 ->
  (forall i j k a b c, (i < j < k)%nat -> nth_error ps i = Some a -> nth_error ps j = Some b -> nth_error ps k = Some c -> 0 <= s * turn a b c) ->
  nth_error ps i = Some a -> nth_error ps (i + 1) = Some b -> nth_error ps (i + 2) = Some c -> s * turn a b c <= s * area2 ps.
Proof.
  intros s ps i a b c _ H A B C. destruct ps as [|p l]; [destruct i; discriminate|]. rewrite area_fan.
  assert (Z : forall q r, q = p -> s * turn p q r == 0) by (intros q r ->; unfold turn; ring).
  assert (T : forall j k u v, (j < k)%nat -> nth_error (p :: l) j = Some u -> nth_error (p :: l) k = Some v -> 0 <= s * turn p u v).
  { intros [|j] k u v J U V; [cbn in U; injection U as <-; rewrite Z by reflexivity; lra|]. apply (H 0%nat (S j) k p u v); [lia|reflexivity|exact U|exact V]. }
  destruct (fan_two s p (p :: l)) as [_ F]; [intros j u v; apply T; lia|].
  specialize (F i a b c A B C). eapply Qle_trans; [|exact F].
  pose proof (T i (i + 2)%nat a c ltac:(lia) A C) as X.
  assert (turn a b c == turn p a b + turn p b c - turn p a c) as -> by (unfold turn; ring). lra.
Qed.
Lemma ccw_convex : forall ps b, convex_ccw ps \/ convex_cw ps -> is_path_ccw ps = Ok b -> if b then 0 < area2 ps else area2 ps < 0.
Proof.
  intros ps b V H. apply ccw_decides in H. destruct H as (i & p & q & r & I1 & I2 & I3 & I4 & I5 & _ & I7).
  assert (NF : ~ turn p q r == 0) by (intro Z; apply I5; unfold flat; rewrite Z; unfold Qle; cbn; lia).
  destruct V as [V|V].
  - pose proof (V i (i + 1)%nat (i + 2)%nat p q r ltac:(lia) I2 I3 I4).
    pose proof (convex_area 1 ps i p q r ltac:(left; reflexivity) ltac:(intros; rewrite Qmult_1_l; eapply V; eassumption) I2 I3 I4).
    destruct b; lra.
  - pose proof (V i (i + 1)%nat (i + 2)%nat p q r ltac:(lia) I2 I3 I4).
    pose proof (convex_area (-1) ps i p q r ltac:(right; reflexivity) ltac:(intros i0 j0 k0 a0 b0 c0 L A B C; pose proof (V i0 j0 k0 a0 b0 c0 L A B C); lra) I2 I3 I4).
    destruct b; lra.
Qed.
Lemma ccw_box : forall xmin xmax ymin ymax, xmin < xmax -> ymin < ymax ->
  is_path_ccw (create_boubox xmin xmax ymin ymax) = if Qle_bool ((xmax - xmin) * (ymax - ymin)) (1 # 100000000) then Raise RuntimeError else Ok true.
Proof.
  intros x0 x1 y0 y1 X Y. set (A := (x1 - x0) * (y1 - y0)).
  assert (AP : 0 < A) by (apply Qmult_lt_0_compat; lra).
  assert (T1 : turn (x0, y0) (x1, y0) (x1, y1) == A) by (unfold turn, A; cbn [fst snd]; ring).
  assert (T2 : turn (x1, y0) (x1, y1) (x0, y1) == A) by (unfold turn, A; cbn [fst snd]; ring).
  clearbody A. destruct (Qle_bool A (1 # 100000000)) eqn:E.
  - apply Qle_bool_iff in E. apply ccw_raises. intros i p q r I P Q R. unfold flat. unfold create_boubox in *. cbn [length] in I.
    destruct i as [|[|i]]; [| |lia]; cbn in P, Q, R; injection P as <-; injection Q as <-; injection R as <-.
    + rewrite T1, Qabs_pos; lra.
    + rewrite T2, Qabs_pos; lra.
  - assert (NE : ~ A <= 1 # 100000000) by (rewrite <- Qle_bool_iff; congruence).
    apply ccw_decides. exists 0%nat, (x0, y0), (x1, y0), (x1, y1). repeat split; try (cbn; lia).
    + unfold flat. rewrite T1, Qabs_pos by lra. exact NE.
    + rewrite T1. exact AP.
Qed.
(** A counter-clockwise arrow head whose second point is the reflex corner. *)
Definition arrow : list point := [(4, 0); (1, 1); (0, 4); (0, 0)].
Lemma arrow_simple : simple_polygon arrow.
Proof.
  intros i j e f L E F. unfold arrow, edges_of in *. cbn in E, F.
  assert (J : (j < 4)%nat) by (destruct j as [|[|[|[|j]]]]; try lia; destruct j; discriminate).
  destruct j as [|[|[|[|j]]]]; try lia; cbn in F; injection F as <-; (destruct i as [|[|[|[|i]]]]; try lia; cbn in E; injection E as <-);
    (split; [|split]); cbn [length]; intros; try lia; try (cbn; discriminate); try (vm_compute; discriminate).
  - intros (t & u & T & U & [A B]). unfold along in *. cbn [fst snd] in *. lra.
  - intros (t & u & T & U & [A B]). unfold along in *. cbn [fst snd] in *. lra.
Qed.
Lemma ccw_refuted : exists ps, simple_polygon ps /\ 0 < area2 ps /\ is_path_ccw ps = Ok false /\ is_path_ccw (ps ++ firstn 1 ps) = Ok false.
Proof. exists arrow. split; [exact arrow_simple|]. repeat split; vm_compute; reflexivity. Qed.
Lemma ccw_open_triangle : forall a b c, is_path_ccw [a; b; c] = Raise RuntimeError.
Proof. intros a b c. apply ccw_raises. intros i p q r I. cbn in I. lia. Qed.

(** * C74 *)
Fixpoint prev_sum (w : point) (l : list point) : Q := match l with [] => 0 | p :: t => (fst p * snd w - snd p * fst w) + prev_sum p t end.
Lemma prev_edges : forall l p f, edge_sum f (p :: l) == - prev_sum p l + (fst (last l p) * snd f - fst f * snd (last l p)).
Proof.
  induction l as [|q l IH]; intros p f; [cbn; ring|].
  change (edge_sum f (p :: q :: l)) with ((fst p * snd q - fst q * snd p) + edge_sum f (q :: l)).
  change (prev_sum p (q :: l)) with ((fst q * snd p - snd q * fst p) + prev_sum q l). rewrite IH.
  assert (last (q :: l) p = last l q) as ->; [|ring].
  clear. revert q p. induction l as [|x l IH]; intros q p; [reflexivity|]. change (last (x :: l) p = last (x :: l) q).
  rewrite (IH x p), (IH x q). reflexivity.
Qed.
Lemma dot_prev : forall l w, dot (map fst l) (map snd (w :: removelast l)) - dot (map snd l) (map fst (w :: removelast l)) == prev_sum w l.
Proof.
  induction l as [|p l IH]; intro w; [cbn; ring|].
  assert (D : forall x xs y ys, dot (x :: xs) (y :: ys) = x * y + dot xs ys) by reflexivity.
  destruct l as [|q l]; [cbn; ring|].
  change (removelast (p :: q :: l)) with (p :: removelast (q :: l)).
  change (map fst (p :: q :: l)) with (fst p :: map fst (q :: l)). change (map snd (p :: q :: l)) with (snd p :: map snd (q :: l)).
  change (map fst (w :: p :: removelast (q :: l))) with (fst w :: map fst (p :: removelast (q :: l))).
  change (map snd (w :: p :: removelast (q :: l))) with (snd w :: map snd (p :: removelast (q :: l))).
  rewrite !D. specialize (IH p). change (prev_sum w (p :: q :: l)) with ((fst p * snd w - snd p * fst w) + prev_sum p (q :: l)). rewrite <- IH. ring.
Qed.
Lemma roll_last {A} : forall (l : list A) x, roll1 (l ++ [x]) = x :: l.
Proof. intros l x. unfold roll1. rewrite rev_app_distr. cbn. rewrite rev_involutive. reflexivity. Qed.
Lemma roll_map {A B} : forall (f : A -> B) (l : list A), l <> [] -> forall d, roll1 (map f l) = map f (last l d :: removelast l).
Proof.
  intros f l N d. rewrite (app_removelast_last d N) at 1. rewrite map_app. cbn [map]. rewrite roll_last. reflexivity.
Qed.
Lemma poly_area_spec : forall ps, poly_area (map fst ps) (map snd ps) == (1 # 2) * Qabs (area2 ps).
Proof.
  intros [|p l]; [reflexivity|]. unfold poly_area. rewrite !(roll_map _ (p :: l) ltac:(discriminate) p). rewrite dot_prev.
  unfold area2. rewrite prev_edges. apply Qmult_comp; [reflexivity|].
  change (prev_sum (last (p :: l) p) (p :: l)) with ((fst p * snd (last (p :: l) p) - snd p * fst (last (p :: l) p)) + prev_sum p l).
  assert (last (p :: l) p = last l p) as -> by (destruct l; reflexivity).
  rewrite <- Qabs_opp. apply Qabs_wd. ring.
Qed.
Lemma edge_sum_app : forall l p a f, edge_sum f (a :: l ++ [p]) == edge_sum p (a :: l) + (fst p * snd f - fst f * snd p).
Proof.
  induction l as [|b l IH]; intros p a f; [cbn; ring|].
  change (edge_sum f (a :: (b :: l) ++ [p])) with ((fst a * snd b - fst b * snd a) + edge_sum f (b :: l ++ [p])). rewrite IH.
  change (edge_sum p (a :: b :: l)) with ((fst a * snd b - fst b * snd a) + edge_sum p (b :: l)). ring.
Qed.
Lemma area_closed : forall p l, area2 ((p :: l) ++ [p]) == area2 (p :: l).
Proof. intros p l. unfold area2. cbn [app]. rewrite edge_sum_app. ring. Qed.
Lemma area_rotate : forall l p, area2 (l ++ [p]) == area2 (p :: l).
Proof.
  intros [|a l] p; [reflexivity|]. unfold area2. cbn [app]. rewrite edge_sum_app.
  change (edge_sum p (p :: a :: l)) with ((fst p * snd a - fst a * snd p) + edge_sum p (a :: l)). ring.
Qed.
Lemma edge_rev : forall l f g, l <> [] -> edge_sum f (rev l) == - edge_sum g l + (match l with [] => 0 | a :: _ => fst a * snd f - fst f * snd a end) + (fst (last l f) * snd g - fst g * snd (last l f)).
Proof.
  induction l as [|a [|b l] IH]; intros f g N; [congruence|cbn; ring|].
  change (rev (a :: b :: l)) with (rev (b :: l) ++ [a]).
  change (edge_sum g (a :: b :: l)) with ((fst a * snd b - fst b * snd a) + edge_sum g (b :: l)).
  change (last (a :: b :: l) f) with (last (b :: l) f).
  assert (R : exists c r, rev (b :: l) = c :: r).
  { destruct (rev (b :: l)) as [|c r] eqn:E; [|eauto]. apply (f_equal (@length _)) in E. rewrite rev_length in E. discriminate. }
  destruct R as (c & r & R). rewrite R. cbn [app]. rewrite edge_sum_app. rewrite <- R. rewrite (IH a g) by discriminate.
  assert (last (b :: l) a = last (b :: l) f) as ->; [|ring].
  clear. revert b. induction l as [|x l IH]; intro b; [reflexivity|]. change (last (x :: l) a = last (x :: l) f). apply IH.
Qed.
Lemma area_rev : forall ps, area2 (rev ps) == - area2 ps.
Proof.
  intros [|p l]; [reflexivity|]. assert (E : area2 (rev (p :: l)) == edge_sum (last (p :: l) p) (rev (p :: l))).
  { destruct (rev (p :: l)) as [|c r] eqn:R; [reflexivity|]. unfold area2.
    assert (last (p :: l) p = c) as ->; [|reflexivity].
    rewrite <- (rev_involutive (p :: l)), R. cbn [rev]. apply last_last. }
  rewrite E. rewrite (edge_rev _ _ p) by discriminate. unfold area2.
  assert (G : forall (l : list point) z u v, last (z :: l) u = last (z :: l) v).
  { clear. induction l as [|w l IH]; intros z u v; [reflexivity|]. change (last (w :: l) u = last (w :: l) v). apply IH. }
  assert (last (p :: l) (last (p :: l) p) = last (p :: l) p) as -> by apply G. ring.
Qed.
Lemma area_box : forall x0 x1 y0 y1, area2 (create_boubox x0 x1 y0 y1) == 2 * ((x1 - x0) * (y1 - y0)).
Proof. intros. unfold area2, create_boubox. cbn. ring. Qed.

(** * C75 *)
Lemma overlapping_iff : forall x0 x1 y0 y1 u0 u1 v0 v1, x0 < x1 -> y0 < y1 -> u0 <= u1 -> v0 <= v1 ->
  (is_overlapping (x0, x1, y0, y1) (u0, u1, v0, v1) = true <-> exists p, inside_box (x0, x1, y0, y1) p /\ u0 <= fst p <= u1 /\ v0 <= snd p <= v1).
Proof.
  assert (G : forall a b c d, a < b -> c <= d -> (a < d /\ c < b) <-> exists t, a < t < b /\ c <= t <= d).
  { intros a b c d A C. split; [|intros (t & T); lra]. intros [L M].
    exists ((Qmax a c + Qmin b d) * (1 # 2)). destruct (Q.max_spec a c) as [[S ->]|[S ->]]; destruct (Q.min_spec b d) as [[R ->]|[R ->]]; lra. }
  intros x0 x1 y0 y1 u0 u1 v0 v1 X Y U V. unfold is_overlapping. rewrite !andb_true_iff, !negb_true_iff.
  assert (B : forall a b, Qle_bool a b = false <-> b < a).
  { intros a b. rewrite <- not_true_iff_false, Qle_bool_iff. split; intro; lra. }
  rewrite !B. pose proof (G x0 x1 u0 u1 X U) as G1. pose proof (G y0 y1 v0 v1 Y V) as G2. split.
  - intros [[[A1 A2] A3] A4]. destruct (proj1 G1 (conj A1 A2)) as (s & S1 & S2). destruct (proj1 G2 (conj A3 A4)) as (t & T1 & T2). exists (s, t). cbn. auto.
  - intros ([s t] & [S1 T1] & S2 & T2). cbn [fst snd] in *. repeat split; lra.
Qed.
Lemma ccw_case : convex_ccw [(0, 0); (2, 0); (2, 2); (0, 2)] /\ is_path_ccw [(0, 0); (2, 0); (2, 2); (0, 2)] = Ok true /\
  convex_cw [(0, 2); (2, 2); (2, 0); (0, 0)] /\ is_path_ccw [(0, 2); (2, 2); (2, 0); (0, 0)] = Ok false.
Proof.
  split; [|split; [reflexivity|split; [|reflexivity]]].
  - intros i j k a b c L A B C. assert (K : (k < 4)%nat) by (destruct k as [|[|[|[|k]]]]; try lia; destruct k; discriminate).
    destruct k as [|[|[|[|k]]]]; try lia; destruct j as [|[|[|[|j]]]]; try lia; destruct i as [|[|[|[|i]]]]; try lia;
      cbn in A, B, C; injection A as <-; injection B as <-; injection C as <-; vm_compute; discriminate.
  - intros i j k a b c L A B C. assert (K : (k < 4)%nat) by (destruct k as [|[|[|[|k]]]]; try lia; destruct k; discriminate).
    destruct k as [|[|[|[|k]]]]; try lia; destruct j as [|[|[|[|j]]]]; try lia; destruct i as [|[|[|[|i]]]]; try lia;
      cbn in A, B, C; injection A as <-; injection B as <-; injection C as <-; vm_compute; discriminate.
Qed.
