(** Coordinates that do not bear the name of their dimension (geodata.py:244-267). *)
From Coq Require Import String List Arith Bool ZArith QArith Lia.
From Verif Require Import M_Base M_Sdf M_Dem S_Dem P_Dem M_Xr S_Xr P_Xr.
Import ListNotations.
Open Scope string_scope.
Open Scope list_scope.

Definition values (ds : dataset) (d : string) (c : arr Q) : list Q := map (fun i => a_at c (at_dim (fun _ => 0%nat) d i)) (seq 0 (ds_size ds d)).
Lemma only_at d i : only d i (at_dim (fun _ => 0%nat) d i).
Proof. split; unfold at_dim; [rewrite String.eqb_refl; reflexivity|]. intros s N. destruct (String.eqb_spec s d); [contradiction|reflexivity]. Qed.
Lemma values_in ds d c : a_dims c = [d] -> labelled c -> forall x, In x (values ds d c) <-> on_axis ds d c x.
Proof.
  intros D L x. unfold values. rewrite in_map_iff. split.
  - intros (i & <- & I). apply in_seq in I. exists i, (at_dim (fun _ => 0%nat) d i). split; [lia|]. split; [apply only_at|reflexivity].
  - intros (i & e & I & (O & _) & ->). exists i. split; [|apply in_seq; lia]. apply L. rewrite D. intros s [<-|[]]. rewrite O. unfold at_dim. rewrite String.eqb_refl. reflexivity.
Qed.
Lemma axis_drops ds lead c d : a_dims c = [d] -> ~ In d lead -> labelled c -> axis ds (drops lead c) = Some (d, values ds d c).
Proof.
  intros D N L. unfold axis. rewrite drops_dims, D. cbn [filter]. destruct (mem_str d lead) eqn:M; [apply mem_str_In in M; contradiction|]. cbn [negb]. unfold values. do 2 f_equal.
  apply map_ext. intro i. rewrite drops_at. apply L. rewrite D. intros s [<-|[]]. rewrite zeros_spec, M. reflexivity.
Qed.
Lemma range_some l lo hi : (match find_overlap_index_range l lo hi with Some _ => true | None => false end) = true <-> exists x, In x l /\ (lo <= x <= hi)%Q.
Proof.
  pose proof (in_range_iff l lo hi) as I. unfold find_overlap_index_range. destruct (in_range_idx l lo hi) as [|i r]; split; intro H; try discriminate; try reflexivity.
  - destruct H as (x & X & B). apply (In_nth _ _ 0%Q) in X. destruct X as (k & K & <-). destruct (proj2 (I k) (conj K B)).
  - destruct (proj1 (I i) (or_introl eq_refl)) as (K & B). exists (nth i l 0%Q). split; [apply nth_In, K|exact B].
Qed.
Lemma meets_iff l x r lo hi : l = x :: r ->
  (Qltb (pmax lo (min_list r x)) (pmin hi (max_list r x)) = true /\ (match find_overlap_index_range l lo hi with Some _ => true | None => false end) = true) <->
  (lo < hi)%Q /\ (exists y, In y l /\ (y < hi)%Q) /\ (exists y, In y l /\ (lo < y)%Q) /\ (exists y z, In y l /\ In z l /\ (y < z)%Q) /\ (exists y, In y l /\ (lo <= y <= hi)%Q).
Proof.
  intros ->. rewrite range_some, Qltb_iff. destruct (fold_pmin r x) as (A1 & A2 & A3). destruct (fold_pmax r x) as (B1 & B2 & B3).
  set (a := min_list r x) in *. set (b := max_list r x) in *. clearbody a b.
  destruct (P_Dem.pmax_spec lo a) as (C1 & C2 & C3). destruct (P_Dem.pmin_spec hi b) as (D1 & D2 & D3). set (p := pmax lo a) in *. set (q := pmin hi b) in *. clearbody p q.
  assert (Ia : In a (x :: r)) by (destruct A3 as [->|A3]; [left; reflexivity|right; exact A3]).
  assert (Ib : In b (x :: r)) by (destruct B3 as [->|B3]; [left; reflexivity|right; exact B3]).
  assert (La : forall y, In y (x :: r) -> (a <= y)%Q) by (intros y [<-|Y]; auto). assert (Lb : forall y, In y (x :: r) -> (y <= b)%Q) by (intros y [<-|Y]; auto).
  split.
  - intros (H & E). split; [eapply Qle_lt_trans; [exact C1|]; eapply Qlt_le_trans; [exact H|exact D1]|].
    split; [exists a; split; [exact Ia|]; eapply Qle_lt_trans; [exact C2|]; eapply Qlt_le_trans; [exact H|exact D1]|].
    split; [exists b; split; [exact Ib|]; eapply Qle_lt_trans; [exact C1|]; eapply Qlt_le_trans; [exact H|exact D2]|].
    split; [exists a, b; split; [exact Ia|]; split; [exact Ib|]; eapply Qle_lt_trans; [exact C2|]; eapply Qlt_le_trans; [exact H|exact D2]|exact E].
  - intros (H1 & (y & Y & H2) & (z & Z & H3) & (u & t & U & T & H4) & E). split; [|exact E].
    assert (a < hi)%Q by (eapply Qle_lt_trans; [exact (La y Y)|exact H2]). assert (lo < b)%Q by (eapply Qlt_le_trans; [exact H3|exact (Lb z Z)]).
    assert (a < b)%Q by (eapply Qle_lt_trans; [exact (La u U)|]; eapply Qlt_le_trans; [exact H4|exact (Lb t T)]).
    destruct C3 as [-> | ->], D3 as [-> | ->]; assumption.
Qed.
Lemma crosses_iff ds d c x r lo hi : a_dims c = [d] -> labelled c -> values ds d c = x :: r ->
  (Qltb (pmax lo (min_list r x)) (pmin hi (max_list r x)) = true /\ (match find_overlap_index_range (x :: r) lo hi with Some _ => true | None => false end) = true) <-> crosses ds d c lo hi.
Proof.
  intros D L E. rewrite (meets_iff (x :: r) x r lo hi eq_refl), <- E. pose proof (values_in ds d c D L) as I. unfold crosses.
  split; intros (H1 & (a & A & H2) & (b & B & H3) & (u & t & U & T & H4) & (e & F & H5)); (split; [exact H1|]); (split; [exists a; split; [apply I; exact A|exact H2]|]);
    (split; [exists b; split; [apply I; exact B|exact H3]|]); (split; [exists u, t; split; [apply I; exact U|split; [apply I; exact T|exact H4]]|exists e; split; [apply I; exact F|exact H5]]).
Qed.
(** With a coordinate that is not named after its dimension, a range that meets the data is refused. *)
Lemma unnamed_axis ds v lead d e xn yn cx cy dx dy bb : well_formed ds -> first_raster ds v -> a_dims v = lead ++ [d; e] ->
  first_name candidates_x ds xn -> first_name candidates_y ds yn -> In (xn, cx) (ds_coords ds) -> In (yn, cy) (ds_coords ds) ->
  a_dims cx = [dx] -> a_dims cy = [dy] -> In dx [d; e] -> In dy [d; e] -> (dx <> xn \/ dy <> yn) -> (1 <= ds_size ds dx)%nat -> (1 <= ds_size ds dy)%nat ->
  (crosses ds dx cx (b0 bb) (b1 bb) /\ crosses ds dy cy (b2 bb) (b3 bb) -> try_subset (Some ds) bb = Raise ValueError) /\
  (~ (crosses ds dx cx (b0 bb) (b1 bb) /\ crosses ds dy cy (b2 bb) (b3 bb)) -> try_subset (Some ds) bb = Ok None).
Proof.
  intros (WN & WC & WV) FR D FX FY IX IY DX DY VX VY N SX SY. pose proof (first_raster_pick ds v FR) as PF.
  assert (NV : NoDup (a_dims v)). { destruct FR as (b & n & a & E & _). apply (WV n). rewrite E. apply in_or_app. right. left. reflexivity. }
  rewrite D in NV.
  assert (RD : reduce_to_2d (with_coords ds v) = Ok (isel0s lead (with_coords ds v))).
  { unfold reduce_to_2d. apply (reduce_loop_ok lead _ _ d e); [exact D|exact NV|]. cbn [with_coords da_var]. rewrite D, app_length. lia. }
  assert (NL : forall s, In s [d; e] -> ~ In s lead). { intros s I J. clear -NV I J. induction lead as [|a l IH]; [destruct J|]. inversion NV as [|? ? H NV']. subst. destruct J as [->|J]; [apply H, in_or_app; right; exact I|exact (IH NV' J)]. }
  unfold try_subset. rewrite PF, RD. cbn [bind]. rewrite (proj2 (pick_name candidates_x ds lead v xn) FX), (proj2 (pick_name candidates_y ds lead v yn) FY).
  rewrite (coord_found ds v lead xn cx WN IX) by (rewrite DX, D; intros s [<-|[]]; apply in_or_app; right; exact VX).
  rewrite (coord_found ds v lead yn cy WN IY) by (rewrite DY, D; intros s [<-|[]]; apply in_or_app; right; exact VY).
  pose proof (proj2 (WC _ _ IX)) as LX. pose proof (proj2 (WC _ _ IY)) as LY.
  rewrite (axis_drops ds lead cx dx DX (NL dx VX) LX), (axis_drops ds lead cy dy DY (NL dy VY) LY).
  assert (B : (String.eqb dx xn && String.eqb dy yn)%bool = false) by (apply andb_false_iff; destruct N; [left|right]; apply String.eqb_neq; assumption). rewrite B. clear B.
  assert (HX : exists x r, values ds dx cx = x :: r) by (unfold values; destruct (ds_size ds dx); [lia|cbn; eauto]).
  assert (HY : exists y s, values ds dy cy = y :: s) by (unfold values; destruct (ds_size ds dy); [lia|cbn; eauto]).
  destruct HX as (x & r & EX), HY as (y & s & EY). rewrite EX, EY. unfold meets_axes. cbn [bind].
  rewrite <- (crosses_iff ds dx cx x r _ _ DX LX EX), <- (crosses_iff ds dy cy y s _ _ DY LY EY).
  destruct (Qltb _ _), (Qltb _ _), (find_overlap_index_range (x :: r) _ _), (find_overlap_index_range (y :: s) _ _); cbn [andb]; split; intros H; try reflexivity; exfalso; intuition discriminate.
Qed.
(** Rows and columns named apart from latitude and longitude. *)
Definition model_file : dataset := {| ds_size := fun _ => 3%nat; ds_vars := [("depth", sum_of ["ny"; "nx"])]; ds_coords := [("lat", along "ny"); ("lon", along "nx")] |}.
Lemma model_wf : well_formed model_file.
Proof.
  split; [nodup|]. split.
  - intros n c [I|[I|[]]]; injection I as <- <-; (split; [nodup|apply labelled_along]).
  - intros n v [I|[]]; injection I as <- <-. split; [nodup|apply labelled_sum].
Qed.
Lemma model_raster : first_raster model_file (sum_of ["ny"; "nx"]).
Proof. exists [], "depth", []. split; [reflexivity|]. split; [cbn; lia|intros ? ? []]. Qed.
Lemma model_crosses d : crosses model_file d (along d) 0 2.
Proof.
  assert (V : forall i, (i < 3)%nat -> on_axis model_file d (along d) (inject_Z (Z.of_nat i))).
  { intros i I. exists i, (at_dim (fun _ => 0%nat) d i). split; [exact I|]. split; [apply only_at|]. unfold along, a_at, at_dim. rewrite String.eqb_refl. reflexivity. }
  pose proof (V 0%nat ltac:(lia)) as V0. pose proof (V 1%nat ltac:(lia)) as V1.
  split; [reflexivity|]. split; [eexists; split; [exact V0|reflexivity]|]. split; [eexists; split; [exact V1|reflexivity]|]. split; [do 2 eexists; split; [exact V0|split; [exact V1|reflexivity]]|].
  eexists. split; [exact V1|]. split; vm_compute; discriminate.
Qed.
Lemma model_refused : well_formed model_file /\ first_raster model_file (sum_of ["ny"; "nx"]) /\ try_subset (Some model_file) (0, 2, 0, 2)%Q = Raise ValueError.
Proof. split; [exact model_wf|]. split; [exact model_raster|]. vm_compute. reflexivity. Qed.
