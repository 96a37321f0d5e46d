(** Proofs about the NetCDF fallback. *)
From Coq Require Import String List Arith Bool ZArith QArith Lia.
From Verif Require Import M_Base M_Sdf M_Grid M_Dem S_Grid S_Dem M_Xr S_Xr.
Import ListNotations.
Open Scope string_scope.
Open Scope list_scope.

Lemma mem_str_In s l : mem_str s l = true <-> In s l.
Proof.
  unfold mem_str. rewrite existsb_exists. split.
  - intros (x & I & E). apply String.eqb_eq in E. subst. exact I.
  - intros I. exists s. split; [exact I|apply String.eqb_refl].
Qed.
Lemma first_raster_pick ds v : first_raster ds v -> pick_first_raster ds = Some (with_coords ds v).
Proof.
  intros (before & n & after & E & L & B). unfold pick_first_raster. rewrite E. clear E.
  induction before as [|[m w] before IH]; cbn [app find snd].
  - destruct (Nat.leb_spec 2 (List.length (a_dims v))); [reflexivity|lia].
  - destruct (Nat.leb_spec 2 (List.length (a_dims w))) as [H|H]; [|apply IH; intros m' w' I; apply (B m'); right; exact I].
    specialize (B m w (or_introl eq_refl)). lia.
Qed.
Lemma pick_first_is ds da : pick_first_raster ds = Some da -> exists v, first_raster ds v /\ da = with_coords ds v.
Proof.
  unfold pick_first_raster. destruct (find _ (ds_vars ds)) as [[n v]|] eqn:F; [|discriminate]. intros E. injection E as <-. exists v. split; [|reflexivity].
  revert F. unfold first_raster. induction (ds_vars ds) as [|[m w] l IH]; cbn [find snd]; [discriminate|].
  destruct (Nat.leb_spec 2 (List.length (a_dims w))) as [H|H]; intros F.
  - injection F as -> ->. exists [], n, l. split; [reflexivity|]. split; [exact H|intros ? ? []].
  - destruct (IH F) as (b & n' & a & E & L & B). exists ((m, w) :: b), n', a. rewrite E. split; [reflexivity|]. split; [exact L|].
    intros m' w' [X|I]; [injection X as <- <-; exact H|apply (B m' w' I)].
Qed.

(** * Dropping leading dimensions *)
Definition drops {A} (lead : list string) (v : arr A) : arr A := fold_left (fun v d => drop d v) lead v.
Definition isel0s (lead : list string) (da : data_array) : data_array := fold_left (fun da d => isel0 d da) lead da.
Lemma isel0s_eq lead : forall da, isel0s lead da = {| da_var := drops lead (da_var da); da_coords := map (fun p => (fst p, drops lead (snd p))) (da_coords da) |}.
Proof.
  induction lead as [|d lead IH]; intros da.
  - cbn. destruct da as [v c]. cbn. f_equal. rewrite <- (map_id c) at 1. apply map_ext. intros [n x]. reflexivity.
  - change (isel0s (d :: lead) da) with (isel0s lead (isel0 d da)). rewrite IH. cbn [isel0 da_var da_coords]. f_equal. rewrite map_map. reflexivity.
Qed.
Lemma drops_dims {A} lead : forall v : arr A, a_dims (drops lead v) = filter (fun s => negb (mem_str s lead)) (a_dims v).
Proof.
  induction lead as [|d lead IH]; intros v.
  - cbn. induction (a_dims v) as [|x l IHl]; [reflexivity|]. cbn. f_equal. exact IHl.
  - change (drops (d :: lead) v) with (drops lead (drop d v)). rewrite IH. cbn [drop a_dims]. induction (a_dims v) as [|x l IHl]; [reflexivity|].
    cbn [filter]. unfold mem_str in *. cbn [existsb]. destruct (String.eqb x d) eqn:E; cbn [negb orb]; [exact IHl|]. cbn [filter].
    destruct (existsb (String.eqb x) lead); cbn [negb]; [exact IHl|f_equal; exact IHl].
Qed.
Fixpoint zeros (lead : list string) (e : index) : index := match lead with [] => e | d :: r => at_dim (zeros r e) d 0 end.
Lemma zeros_spec lead e s : zeros lead e s = if mem_str s lead then 0%nat else e s.
Proof.
  induction lead as [|d lead IH]; [reflexivity|]. cbn [zeros]. unfold at_dim, mem_str in *. cbn [existsb]. destruct (String.eqb s d); [reflexivity|exact IH].
Qed.
Lemma drops_at {A} lead : forall (v : arr A) e, a_at (drops lead v) e = a_at v (zeros lead e).
Proof.
  induction lead as [|d lead IH]; intros v e; [reflexivity|]. change (drops (d :: lead) v) with (drops lead (drop d v)). rewrite IH. reflexivity.
Qed.
Lemma nodup_drop d dims : NoDup (d :: dims) -> filter (fun s => negb (String.eqb s d)) (d :: dims) = dims.
Proof.
  intros N. inversion N as [|? ? H N']. subst. cbn [filter]. rewrite String.eqb_refl. cbn [negb]. clear N N'.
  induction dims as [|x l IH]; [reflexivity|]. cbn [filter]. destruct (String.eqb x d) eqn:E.
  - apply String.eqb_eq in E. subst. destruct H. left; reflexivity.
  - cbn [negb]. f_equal. apply IH. intros I. apply H. right; exact I.
Qed.
Lemma reduce_loop_ok : forall lead fuel da d e, a_dims (da_var da) = lead ++ [d; e] -> NoDup (lead ++ [d; e]) -> (List.length lead <= fuel)%nat ->
  reduce_loop fuel da = Ok (isel0s lead da).
Proof.
  induction lead as [|x lead IH]; intros fuel da d e D N L.
  - cbn [app] in D. destruct fuel; cbn [reduce_loop]; rewrite D; reflexivity.
  - cbn [List.length] in L. destruct fuel as [|fuel]; [lia|]. cbn [reduce_loop]. rewrite D. cbn [app].
    destruct (lead ++ [d; e]) as [|a [|b r]] eqn:X; [destruct lead; discriminate|destruct lead as [|? [|? ?]]; discriminate|].
    change (isel0s (x :: lead) da) with (isel0s lead (isel0 x da)). apply (IH _ _ d e); [|inversion N; subst; assumption|lia].
    cbn [isel0 da_var drop a_dims]. rewrite D. cbn [app]. apply nodup_drop. exact N.
Qed.
Lemma split_last2 (l : list string) : (2 <= List.length l)%nat -> exists lead d e, l = lead ++ [d; e].
Proof.
  induction l as [|a l IH]; cbn [List.length]; [lia|]. intros L. destruct l as [|b [|c r]]; cbn [List.length] in *; [lia|exists [], a, b; reflexivity|].
  destruct IH as (lead & d & e & E); [lia|]. exists (a :: lead), d, e. rewrite E. reflexivity.
Qed.
Lemma reduce_total ds v : NoDup (a_dims v) -> (2 <= List.length (a_dims v))%nat ->
  exists lead d e, a_dims v = lead ++ [d; e] /\ reduce_to_2d (with_coords ds v) = Ok (isel0s lead (with_coords ds v)).
Proof.
  intros N L. destruct (split_last2 _ L) as (lead & d & e & E). exists lead, d, e. split; [exact E|]. unfold reduce_to_2d. cbn [with_coords da_var] in *.
  rewrite E in N. apply (reduce_loop_ok lead _ _ d e); [exact E|exact N|]. rewrite E, app_length. lia.
Qed.

(** * Names *)
Lemma names_sub lead ds v : forall n, In n (map fst (da_coords (isel0s lead (with_coords ds v)))) -> In n (map fst (ds_coords ds)).
Proof.
  intros n. rewrite isel0s_eq. cbn [da_coords with_coords]. rewrite map_map. cbn [fst]. rewrite !in_map_iff. intros (p & E & I). apply filter_In in I. exists p. tauto.
Qed.
Lemma pick_name names ds lead v : forall n, pick_coord_name ds (isel0s lead (with_coords ds v)) names = Some n <-> first_name names ds n.
Proof.
  unfold pick_coord_name. assert (T : forall c, mem_str c (map fst (da_coords (isel0s lead (with_coords ds v)))) || mem_str c (map fst (ds_coords ds)) = true <-> In c (map fst (ds_coords ds))).
  { intros c. rewrite orb_true_iff, !mem_str_In. split; [intros [H|H]; [eapply names_sub, H|exact H]|auto]. }
  intros n. induction names as [|m names IH].
  - split; [discriminate|]. intros (b & a & E & _). destruct b; discriminate.
  - cbn [find]. destruct (mem_str m _ || mem_str m _) eqn:M.
    + apply T in M. split.
      * intros E. injection E as <-. exists [], names. split; [reflexivity|]. split; [exact M|intros ? []].
      * intros (b & a & E & I & B). destruct b as [|x b]; [injection E as -> _; reflexivity|]. injection E as <- ->. destruct (B m (or_introl eq_refl) M).
    + assert (NM : ~ In m (map fst (ds_coords ds))) by (intros H; apply T in H; congruence). rewrite IH. split.
      * intros (b & a & E & I & B). exists (m :: b), a. rewrite E. split; [reflexivity|]. split; [exact I|]. intros x [<-|J]; auto.
      * intros (b & a & E & I & B). destruct b as [|x b]; [injection E as -> _; contradiction|]. injection E as <- ->. exists b, a. split; [reflexivity|]. split; [exact I|].
        intros y J. apply B. right; exact J.
Qed.
Lemma lookup_ok {A} n (c : A) l : NoDup (map fst l) -> In (n, c) l -> lookup n l = Some c.
Proof.
  intros N I. unfold lookup. induction l as [|[m d] l IH]; [destruct I|]. inversion N as [|? ? H N']. subst. cbn [find fst]. destruct (String.eqb n m) eqn:E.
  - apply String.eqb_eq in E. subst. destruct I as [E|I]; [injection E as ->; reflexivity|]. destruct H. apply in_map_iff. exists (m, c). auto.
  - destruct I as [X|I]; [injection X as -> ->; rewrite String.eqb_refl in E; discriminate|]. apply IH; assumption.
Qed.
Lemma lookup_none {A} n (l : list (string * A)) : lookup n l = None <-> ~ In n (map fst l).
Proof.
  unfold lookup. induction l as [|[m d] l IH]; [cbn; tauto|]. cbn [find fst map]. destruct (String.eqb n m) eqn:E.
  - apply String.eqb_eq in E. subst. split; [discriminate|]. intros H. destruct H. left; reflexivity.
  - cbn [In]. rewrite IH. apply String.eqb_neq in E. split; [intros H [X|X]; [congruence|tauto]|tauto].
Qed.
Lemma nodup_map_filter {A B} (f : A -> B) g l : NoDup (map f l) -> NoDup (map f (filter g l)).
Proof.
  induction l as [|x l IH]; [constructor|]. cbn [map filter]. intros N. inversion N as [|? ? H N']. subst. destruct (g x); [|apply IH, N'].
  cbn [map]. constructor; [|apply IH, N']. intros I. apply H. apply in_map_iff in I. destruct I as (y & E & J). apply filter_In in J. apply in_map_iff. exists y. tauto.
Qed.
Lemma coord_found ds v lead n c : NoDup (map fst (ds_coords ds)) -> In (n, c) (ds_coords ds) -> (forall d, In d (a_dims c) -> In d (a_dims v)) ->
  lookup n (da_coords (isel0s lead (with_coords ds v))) = Some (drops lead c).
Proof.
  intros N I S. rewrite isel0s_eq. cbn [da_coords with_coords]. apply lookup_ok.
  - rewrite map_map. cbn [fst]. apply nodup_map_filter, N.
  - apply in_map_iff. exists (n, c). split; [reflexivity|]. apply filter_In. split; [exact I|]. cbn [snd]. apply forallb_forall. intros d J. apply mem_str_In, S, J.
Qed.
Lemma coord_lost ds v lead n : (forall c, In (n, c) (ds_coords ds) -> exists d, In d (a_dims c) /\ ~ In d (a_dims v)) ->
  lookup n (da_coords (isel0s lead (with_coords ds v))) = None.
Proof.
  intros H. apply lookup_none. rewrite isel0s_eq. cbn [da_coords with_coords]. rewrite map_map. cbn [fst]. intros I. apply in_map_iff in I. destruct I as ([m c] & E & J).
  cbn [fst] in E. subst m. apply filter_In in J. destruct J as [J F]. destruct (H c J) as (d & D & ND). cbn [snd] in F. rewrite forallb_forall in F. apply ND, mem_str_In, F, D.
Qed.

(** * The array found *)
Lemma filter_none (lead : list string) l : (forall x, In x l -> ~ In x lead) -> filter (fun s => negb (mem_str s lead)) l = l.
Proof.
  induction l as [|x l IH]; intros H; [reflexivity|]. cbn [filter]. destruct (mem_str x lead) eqn:E.
  - apply mem_str_In in E. destruct (H x (or_introl eq_refl) E).
  - cbn [negb]. f_equal. apply IH. intros y I. apply H. right; exact I.
Qed.
Lemma filter_lead (lead : list string) l : NoDup (lead ++ l) -> filter (fun s => negb (mem_str s lead)) (lead ++ l) = l.
Proof.
  intros N. rewrite filter_app. assert (E : filter (fun s => negb (mem_str s lead)) lead = []).
  { assert (G : forall k, (forall x, In x k -> In x lead) -> filter (fun s => negb (mem_str s lead)) k = []).
    { induction k as [|x k IH]; intros H; [reflexivity|]. cbn [filter]. rewrite (proj2 (mem_str_In x lead) (H x (or_introl eq_refl))). cbn [negb]. apply IH. intros y I. apply H. right; exact I. }
    apply G. auto. }
  rewrite E. cbn [app]. apply filter_none. intros x I J. revert N. clear -I J. induction lead as [|a lead IH]; [destruct J|]. cbn [app]. intros N. inversion N as [|? ? H N']. subst.
  destruct J as [->|J]; [apply H, in_or_app; right; exact I|apply IH; assumption].
Qed.
Lemma nth_map_seq {A} (f : nat -> A) n i d : (i < n)%nat -> nth i (map f (seq 0 n)) d = f i.
Proof. intros H. rewrite (nth_indep _ d (f 0%nat)) by (rewrite map_length, seq_length; exact H). rewrite map_nth, seq_nth by exact H. reflexivity. Qed.
Lemma subset_found ds v lead xn yn cx cy bb : well_formed ds -> first_raster ds v -> (a_dims v = lead ++ [yn; xn] \/ a_dims v = lead ++ [xn; yn]) ->
  first_name candidates_x ds xn -> first_name candidates_y ds yn -> In (xn, cx) (ds_coords ds) -> In (yn, cy) (ds_coords ds) -> a_dims cx = [xn] -> a_dims cy = [yn] ->
  exists a, try_subset (Some ds) bb = subset_netcdf a bb /\ xr_shape a (ds_size ds xn) (ds_size ds yn) /\
    List.length (xa_x a) = ds_size ds xn /\ List.length (xa_y a) = ds_size ds yn /\
    (forall i e, (i < ds_size ds xn)%nat -> only xn i e -> nth i (xa_x a) 0%Q = a_at cx e) /\ (forall j e, (j < ds_size ds yn)%nat -> only yn j e -> nth j (xa_y a) 0%Q = a_at cy e) /\
    (forall i j e, (i < ds_size ds xn)%nat -> (j < ds_size ds yn)%nat -> only2 xn yn i j e -> xr_value a i j = a_at v e).
Proof.
  intros (WN & WC & WV) FR DV FX FY IX IY DX DY. pose proof (first_raster_pick ds v FR) as PF.
  assert (NV : NoDup (a_dims v) /\ labelled v). { destruct FR as (b & n & a & E & _). apply (WV n). rewrite E. apply in_or_app. right. left. reflexivity. }
  destruct NV as [NV LV]. destruct (WC _ _ IX) as [_ LX]. destruct (WC _ _ IY) as [_ LY].
  assert (XY : xn <> yn).
  { intros ->. assert (K : forall (l : list string) a, ~ NoDup (l ++ [a; a])).
    { induction l as [|y l IH]; intros a N; cbn [app] in N; inversion N as [|? ? H N']; subst; [apply H; left; reflexivity|apply (IH a N')]. }
    destruct DV as [DV|DV]; rewrite DV in NV; apply (K _ _ NV). }
  assert (DL : exists d e, a_dims v = lead ++ [d; e] /\ ((d = yn /\ e = xn) \/ (d = xn /\ e = yn))) by (destruct DV; [exists yn, xn|exists xn, yn]; auto).
  destruct DL as (d & e & D & DE). rewrite D in NV.
  assert (RD : reduce_to_2d (with_coords ds v) = Ok (isel0s lead (with_coords ds v))).
  { unfold reduce_to_2d. apply (reduce_loop_ok lead _ _ d e); [exact D|exact NV|]. cbn [with_coords da_var]. rewrite D, app_length. lia. }
  assert (XI : In xn (a_dims v) /\ In yn (a_dims v)).
  { rewrite D, !in_app_iff. cbn. destruct DE as [[-> ->]|[-> ->]]; tauto. }
  assert (OUT : ~ In xn lead /\ ~ In yn lead).
  { assert (H : forall s, In s [d; e] -> ~ In s lead).
    { intros s I J. clear -NV I J. induction lead as [|a lead IH]; [destruct J|]. cbn [app] in NV. inversion NV as [|? ? H N']. subst.
      destruct J as [->|J]; [apply H, in_or_app; right; exact I|apply IH; assumption]. }
    destruct DE as [[-> ->]|[-> ->]]; split; apply H; cbn; tauto. }
  destruct OUT as [OX OY].
  assert (DDX : a_dims (drops lead cx) = [xn]). { rewrite drops_dims, DX. apply filter_none. intros s [<-|[]]. exact OX. }
  assert (DDY : a_dims (drops lead cy) = [yn]). { rewrite drops_dims, DY. apply filter_none. intros s [<-|[]]. exact OY. }
  assert (DDV : a_dims (drops lead v) = [d; e]). { rewrite drops_dims, D. apply filter_lead, NV. }
  eexists. split.
  - unfold try_subset. rewrite PF, RD. cbn [bind]. rewrite (proj2 (pick_name candidates_x ds lead v xn) FX), (proj2 (pick_name candidates_y ds lead v yn) FY).
    rewrite (coord_found ds v lead xn cx WN IX) by (rewrite DX; intros s [<-|[]]; apply XI).
    rewrite (coord_found ds v lead yn cy WN IY) by (rewrite DY; intros s [<-|[]]; apply XI).
    unfold axis. rewrite DDX, DDY. rewrite !String.eqb_refl. cbn [andb]. rewrite isel0s_eq. cbn [da_var with_coords]. rewrite DDV. reflexivity.
  - cbn [xa_x xa_y xa_xfirst xa_values].
    assert (ZE : forall e', (forall s, In s lead -> e' s = 0%nat) -> forall s, zeros lead e' s = e' s).
    { intros e' H s. rewrite zeros_spec. destruct (mem_str s lead) eqn:M; [apply mem_str_In in M; symmetry; apply H, M|reflexivity]. }
    assert (NDE : d <> e) by (destruct DE as [[-> ->]|[-> ->]]; congruence).
    split; [|split; [rewrite map_length, seq_length; reflexivity|split; [rewrite map_length, seq_length; reflexivity|split; [|split]]]].
    + unfold xr_shape, table. cbn [xa_xfirst xa_values]. rewrite DDV. destruct DE as [[-> ->]|[-> ->]].
      * destruct (String.eqb_spec yn xn); [congruence|]. split; [rewrite map_length, seq_length; reflexivity|]. apply Forall_forall. intros r I. apply in_map_iff in I. destruct I as (i & <- & _). rewrite map_length, seq_length. reflexivity.
      * rewrite String.eqb_refl. split; [rewrite map_length, seq_length; reflexivity|]. apply Forall_forall. intros r I. apply in_map_iff in I. destruct I as (i & <- & _). rewrite map_length, seq_length. reflexivity.
    + intros i e' L [E1 E2]. rewrite (nth_map_seq _ _ _ _ L), drops_at. apply LX. rewrite DX. intros s [<-|[]].
      rewrite zeros_spec. destruct (mem_str xn lead) eqn:M; [apply mem_str_In in M; contradiction|]. unfold at_dim. rewrite String.eqb_refl. auto.
    + intros i e' L [E1 E2]. rewrite (nth_map_seq _ _ _ _ L), drops_at. apply LY. rewrite DY. intros s [<-|[]].
      rewrite zeros_spec. destruct (mem_str yn lead) eqn:M; [apply mem_str_In in M; contradiction|]. unfold at_dim. rewrite String.eqb_refl. auto.
    + intros i j e' Li Lj (E1 & E2 & E3). unfold xr_value, table. cbn [xa_xfirst xa_values]. rewrite DDV.
      assert (ML : forall k l, (k = d /\ l = e) -> forall a b, (a < ds_size ds d)%nat -> (b < ds_size ds e)%nat -> e' d = a -> e' e = b ->
        nth b (nth a (map (fun i0 => map (fun j0 => a_at (drops lead v) (at_dim (at_dim (fun _ => 0%nat) d i0) e j0)) (seq 0 (ds_size ds e))) (seq 0 (ds_size ds d))) []) NaN = a_at v e').
      { intros _ _ _ a b La Lb Ea Eb. rewrite (nth_map_seq _ _ _ _ La), (nth_map_seq _ _ _ _ Lb), drops_at. apply LV. intros s _.
        rewrite zeros_spec. unfold at_dim. destruct (mem_str s lead) eqn:M.
        - apply mem_str_In in M. symmetry. apply E3; intros ->; contradiction.
        - destruct (String.eqb_spec s e) as [->|Ne]; [auto|]. destruct (String.eqb_spec s d) as [->|Nd]; [auto|]. symmetry. apply E3; destruct DE as [[-> ->]|[-> ->]]; assumption. }
      destruct DE as [[-> ->]|[-> ->]].
      * destruct (String.eqb_spec yn xn); [congruence|]. apply (ML yn xn); auto.
      * rewrite String.eqb_refl. apply (ML xn yn); auto.
Qed.

(** * Errors *)
Lemma subset_outcomes a bb : (exists r, subset_netcdf a bb = Ok r) \/ subset_netcdf a bb = Raise ValueError.
Proof.
  unfold subset_netcdf. destruct (xa_x a) as [|x0 xr]; [right; reflexivity|]. destruct (xa_y a) as [|y0 yr]; [right; reflexivity|]. left.
  match goal with |- context [if ?b then _ else _] => destruct b end; [|eexists; reflexivity].
  match goal with |- context [match ?o with Some _ => _ | None => _ end] => destruct o as [[i0 i1]|] end; [|eexists; reflexivity].
  match goal with |- context [match ?o with Some _ => _ | None => _ end] => destruct o as [[j0 j1]|] end; eexists; reflexivity.
Qed.
Lemma meets_outcomes x y bb : (exists r, meets_axes x y bb = Ok r) \/ meets_axes x y bb = Raise ValueError.
Proof. unfold meets_axes. destruct x; [right; reflexivity|]. destruct y; [right; reflexivity|]. left. eexists. reflexivity. Qed.
Lemma first_name_dec names ds : (exists n, first_name names ds n) \/ forall n, ~ first_name names ds n.
Proof.
  induction names as [|m names IH].
  - right. intros n (b & a & E & _). destruct b; discriminate.
  - destruct (in_dec string_dec m (map fst (ds_coords ds))) as [I|I]; [left; exists m, [], names; split; [reflexivity|split; [exact I|intros ? []]]|].
    destruct IH as [(n & b & a & E & J & B)|IH].
    + left. exists n, (m :: b), a. rewrite E. split; [reflexivity|]. split; [exact J|]. intros x [<-|K]; auto.
    + right. intros n (b & a & E & J & B). destruct b as [|y b]; [injection E as -> _; contradiction|]. injection E as <- ->. apply (IH n). exists b, a. split; [reflexivity|]. split; [exact J|].
      intros x K. apply B. right; exact K.
Qed.
Lemma first_name_unique names ds n m : first_name names ds n -> first_name names ds m -> n = m.
Proof.
  revert n m. induction names as [|x names IH]; intros n m (b & a & E & I & B) (b' & a' & E' & I' & B'); [destruct b; discriminate|].
  destruct b as [|y b], b' as [|y' b'].
  - injection E as -> _. injection E' as -> _. reflexivity.
  - injection E as -> _. injection E' as <- _. destruct (B' n (or_introl eq_refl) I).
  - injection E as <- _. injection E' as -> _. destruct (B m (or_introl eq_refl) I').
  - injection E as <- ->. injection E' as <- E'. apply IH; [exists b, a|exists b', a']; (split; [auto|split; [assumption|]]); intros z K; [apply B|apply B']; right; exact K.
Qed.
Lemma carried_dec ds v n c : NoDup (map fst (ds_coords ds)) -> In (n, c) (ds_coords ds) -> carried ds v n \/ exists d, In d (a_dims c) /\ ~ In d (a_dims v).
Proof.
  intros N I. assert (U : forall c', In (n, c') (ds_coords ds) -> c' = c).
  { intros c' I'. pose proof (lookup_ok n c _ N I). pose proof (lookup_ok n c' _ N I'). congruence. }
  assert (D : (forall d, In d (a_dims c) -> In d (a_dims v)) \/ exists d, In d (a_dims c) /\ ~ In d (a_dims v)).
  { clear. induction (a_dims c) as [|x l [IH|(d & A & B)]]; [left; intros ? []| |right; exists d; split; [right; exact A|exact B]].
    destruct (in_dec string_dec x (a_dims v)) as [I|I]; [left; intros d [<-|J]; auto|right; exists x; split; [left; reflexivity|exact I]]. }
  destruct D as [D|D]; [left|right; exact D]. intros c' I'. rewrite (U c' I'). exact D.
Qed.
Lemma key_error ds v xn yn bb : well_formed ds -> first_raster ds v -> first_name candidates_x ds xn -> first_name candidates_y ds yn ->
  (try_subset (Some ds) bb = Raise KeyError <-> ~ (carried ds v xn /\ carried ds v yn)).
Proof.
  intros (WN & WC & WV) FR FX FY. pose proof (first_raster_pick ds v FR) as PF.
  assert (NV : NoDup (a_dims v) /\ (2 <= List.length (a_dims v))%nat). { destruct FR as (b & n & a & E & L & _). split; [apply (WV n); rewrite E; apply in_or_app; right; left; reflexivity|exact L]. }
  destruct (reduce_total ds v (proj1 NV) (proj2 NV)) as (lead & d & e & D & R).
  assert (CX : exists cx, In (xn, cx) (ds_coords ds)). { destruct FX as (_ & _ & _ & I & _). apply in_map_iff in I. destruct I as ([m c] & <- & I). exists c. exact I. }
  assert (CY : exists cy, In (yn, cy) (ds_coords ds)). { destruct FY as (_ & _ & _ & I & _). apply in_map_iff in I. destruct I as ([m c] & <- & I). exists c. exact I. }
  destruct CX as (cx & IX), CY as (cy & IY).
  unfold try_subset. rewrite PF, R. cbn [bind]. rewrite (proj2 (pick_name candidates_x ds lead v xn) FX), (proj2 (pick_name candidates_y ds lead v yn) FY).
  assert (LOST : forall n c, In (n, c) (ds_coords ds) -> (exists d, In d (a_dims c) /\ ~ In d (a_dims v)) -> lookup n (da_coords (isel0s lead (with_coords ds v))) = None).
  { intros n c I (q & A & B). apply coord_lost. intros c' I'. pose proof (lookup_ok n c _ WN I). pose proof (lookup_ok n c' _ WN I'). assert (c' = c) by congruence. subst c'. exists q. auto. }
  destruct (carried_dec ds v xn cx WN IX) as [KX|KX].
  - rewrite (coord_found ds v lead xn cx WN IX (KX cx IX)). destruct (carried_dec ds v yn cy WN IY) as [KY|KY].
    + rewrite (coord_found ds v lead yn cy WN IY (KY cy IY)). split; [|tauto]. intros H. exfalso. revert H.
      destruct (axis ds (drops lead cx)) as [[dx x]|]; [|discriminate]. destruct (axis ds (drops lead cy)) as [[dy y]|]; [|discriminate].
      destruct (String.eqb dx xn && String.eqb dy yn).
      * match goal with |- subset_netcdf ?a bb = _ -> _ => destruct (subset_outcomes a bb) as [(r & ->)| ->]; discriminate end.
      * destruct (meets_outcomes x y bb) as [([] & ->)| ->]; discriminate.
    + rewrite (LOST yn cy IY KY). split; [intros _ [_ H]|reflexivity]. destruct KY as (q & A & B). apply B, (H cy IY q A).
  - rewrite (LOST xn cx IX KX). split; [intros _ [H _]|reflexivity]. destruct KX as (q & A & B). apply B, (H cx IX q A).
Qed.
Lemma nothing_found ds bb : well_formed ds -> ((forall v, ~ first_raster ds v) \/ (forall n, ~ first_name candidates_x ds n) \/ (forall n, ~ first_name candidates_y ds n)) ->
  try_subset (Some ds) bb = Ok None.
Proof.
  intros (WN & WC & WV) H. unfold try_subset. destruct (pick_first_raster ds) as [da|] eqn:PF; [|reflexivity].
  destruct (pick_first_is ds da PF) as (v & FR & ->). destruct H as [H|H]; [destruct (H v FR)|].
  assert (NV : NoDup (a_dims v) /\ (2 <= List.length (a_dims v))%nat). { destruct FR as (b & n & a & E & L & _). split; [apply (WV n); rewrite E; apply in_or_app; right; left; reflexivity|exact L]. }
  destruct (reduce_total ds v (proj1 NV) (proj2 NV)) as (lead & d & e & D & R). rewrite R. cbn [bind].
  destruct (pick_coord_name ds (isel0s lead (with_coords ds v)) candidates_x) as [xn|] eqn:X; [|reflexivity].
  destruct (pick_coord_name ds (isel0s lead (with_coords ds v)) candidates_y) as [yn|] eqn:Y; [|reflexivity].
  apply pick_name in X. apply pick_name in Y. destruct H as [H|H]; [destruct (H xn X)|destruct (H yn Y)].
Qed.
Lemma never_stuck ds bb : well_formed ds -> try_subset (Some ds) bb <> OutOfFuel.
Proof.
  intros W. unfold try_subset. destruct (pick_first_raster ds) as [da|] eqn:PF; [|discriminate].
  destruct (pick_first_is ds da PF) as (v & FR & ->). destruct W as (WN & WC & WV).
  assert (NV : NoDup (a_dims v) /\ (2 <= List.length (a_dims v))%nat). { destruct FR as (b & n & a & E & L & _). split; [apply (WV n); rewrite E; apply in_or_app; right; left; reflexivity|exact L]. }
  destruct (reduce_total ds v (proj1 NV) (proj2 NV)) as (lead & d & e & D & R). rewrite R. cbn [bind].
  destruct (pick_coord_name _ _ candidates_x) as [xn|]; [|discriminate]. destruct (pick_coord_name _ _ candidates_y) as [yn|]; [|discriminate].
  destruct (lookup xn _) as [cx|]; [|discriminate]. destruct (lookup yn _) as [cy|]; [|discriminate].
  destruct (axis ds cx) as [[dx x]|]; [|discriminate]. destruct (axis ds cy) as [[dy y]|]; [|discriminate].
  destruct (String.eqb dx xn && String.eqb dy yn).
  - match goal with |- subset_netcdf ?a bb <> _ => destruct (subset_outcomes a bb) as [(r & ->)| ->]; discriminate end.
  - destruct (meets_outcomes x y bb) as [([] & ->)| ->]; discriminate.
Qed.
(** A coordinate along a leading dimension is gone after the reduction. *)
Lemma leading_axis ds v lead d e xn yn cx cy bb : well_formed ds -> first_raster ds v -> a_dims v = lead ++ [d; e] ->
  first_name candidates_x ds xn -> first_name candidates_y ds yn -> In (xn, cx) (ds_coords ds) -> In (yn, cy) (ds_coords ds) ->
  a_dims cx = [xn] -> a_dims cy = [yn] -> In xn (a_dims v) -> In yn (a_dims v) -> (In xn lead \/ In yn lead) -> try_subset (Some ds) bb = Ok None.
Proof.
  intros (WN & WC & WV) FR D FX FY IX IY DX DY VX VY L. pose proof (first_raster_pick ds v FR) as PF.
  assert (NV : NoDup (a_dims v)). { destruct FR as (b & n & a & E & _). apply (WV n). rewrite E. apply in_or_app. right. left. reflexivity. }
  rewrite D in NV.
  assert (RD : reduce_to_2d (with_coords ds v) = Ok (isel0s lead (with_coords ds v))).
  { unfold reduce_to_2d. apply (reduce_loop_ok lead _ _ d e); [exact D|exact NV|]. cbn [with_coords da_var]. rewrite D, app_length. lia. }
  unfold try_subset. rewrite PF, RD. cbn [bind]. rewrite (proj2 (pick_name candidates_x ds lead v xn) FX), (proj2 (pick_name candidates_y ds lead v yn) FY).
  rewrite (coord_found ds v lead xn cx WN IX) by (rewrite DX; intros s [<-|[]]; exact VX).
  rewrite (coord_found ds v lead yn cy WN IY) by (rewrite DY; intros s [<-|[]]; exact VY).
  assert (G : forall n c, a_dims c = [n] -> In n lead -> axis ds (drops lead c) = None).
  { intros n c DC I. unfold axis. rewrite drops_dims, DC. cbn [filter]. rewrite (proj2 (mem_str_In n lead) I). reflexivity. }
  destruct L as [L|L]; [rewrite (G xn cx DX L); reflexivity|]. rewrite (G yn cy DY L). destruct (axis ds (drops lead cx)) as [[? ?]|]; reflexivity.
Qed.

(** * Witnesses *)
Definition along (d : string) : arr Q := {| a_dims := [d]; a_at := fun e => inject_Z (Z.of_nat (e d)) |}.
Definition sum_of (dims : list string) : arr num := {| a_dims := dims; a_at := fun e => Fin (inject_Z (Z.of_nat (list_sum (map (fun d => (10 * e d)%nat) dims)))) |}.
Definition file (vars : list (string * arr num)) (extra : list (string * arr Q)) : dataset :=
  {| ds_size := fun _ => 3%nat; ds_vars := vars; ds_coords := [("lat", along "lat"); ("lon", along "lon")] ++ extra |}.
Lemma labelled_along d : labelled (along d).
Proof. intros e e' H. cbn [along a_at]. rewrite (H d (or_introl eq_refl)). reflexivity. Qed.
Lemma labelled_sum dims : labelled (sum_of dims).
Proof. intros e e' H. cbn [sum_of a_at a_dims] in *. do 4 f_equal. apply map_ext_in. intros d I. rewrite (H d I). reflexivity. Qed.
Ltac nodup := repeat constructor; cbn; intuition discriminate.
Lemma file_wf vars extra : NoDup (["lat"; "lon"] ++ map fst extra) -> (forall n c, In (n, c) extra -> exists d, c = along d) ->
  (forall n v, In (n, v) vars -> exists dims, v = sum_of dims /\ NoDup dims) -> well_formed (file vars extra).
Proof.
  intros N E V. split; [|split].
  - cbn [file ds_coords]. rewrite map_app. exact N.
  - cbn [file ds_coords]. intros n c I. assert (D : exists d, c = along d).
    { apply in_app_or in I. destruct I as [[I|[I|[]]]|I]; [injection I as _ <-; eexists; reflexivity|injection I as _ <-; eexists; reflexivity|apply (E n), I]. }
    destruct D as (d & ->). split; [repeat constructor; intros []|apply labelled_along].
  - intros n v I. destruct (V n v I) as (dims & -> & ND). split; [exact ND|apply labelled_sum].
Qed.
Definition plain_file : dataset := file [("crs", sum_of []); ("elevation", sum_of ["time"; "lat"; "lon"])] [].
Definition bounds_file : dataset := file [("lat_bnds", sum_of ["lat"; "nv"]); ("elevation", sum_of ["time"; "lat"; "lon"])] [].
Definition other_grid_file : dataset := file [("elevation", sum_of ["lat"; "lon"])] [("x", along "x")].
Definition time_last_file : dataset := file [("elevation", sum_of ["lat"; "lon"; "time"])] [].
Lemma plain_wf : well_formed plain_file.
Proof. apply file_wf; [nodup|intros ? ? []|]. intros n v [I|[I|[]]]; injection I as <- <-; eexists; (split; [reflexivity|nodup]). Qed.
Lemma bounds_wf : well_formed bounds_file.
Proof. apply file_wf; [nodup|intros ? ? []|]. intros n v [I|[I|[]]]; injection I as <- <-; eexists; (split; [reflexivity|nodup]). Qed.
Lemma other_wf : well_formed other_grid_file.
Proof. apply file_wf; [nodup|intros ? ? [I|[]]; injection I as <- <-; eexists; reflexivity|]. intros n v [I|[]]; injection I as <- <-; eexists; (split; [reflexivity|nodup]). Qed.
Lemma time_last_wf : well_formed time_last_file.
Proof. apply file_wf; [nodup|intros ? ? []|]. intros n v [I|[]]; injection I as <- <-; eexists; (split; [reflexivity|nodup]). Qed.
Lemma lon_first vars : first_name candidates_x (file vars []) "lon".
Proof. exists ["x"], ["longitude"; "Long"; "LONGITUDE"]. split; [reflexivity|]. split; [cbn; auto|]. intros m [<-|[]]. cbn. intuition discriminate. Qed.
Lemma lat_first vars extra : ~ In "y" (map fst extra) -> first_name candidates_y (file vars extra) "lat".
Proof. intros N. exists ["y"], ["latitude"; "Lat"; "LATITUDE"]. split; [reflexivity|]. split; [left; reflexivity|]. intros m [<-|[]]. cbn. intuition discriminate. Qed.
Lemma x_first vars : first_name candidates_x (file vars [("x", along "x")]) "x".
Proof. exists [], ["lon"; "longitude"; "Long"; "LONGITUDE"]. split; [reflexivity|]. split; [cbn; auto|]. intros m []. Qed.
Lemma plain_raster : first_raster plain_file (sum_of ["time"; "lat"; "lon"]).
Proof. exists [("crs", sum_of [])], "elevation", []. split; [reflexivity|]. split; [cbn; lia|]. intros m w [I|[]]. injection I as <- <-. cbn. lia. Qed.
Lemma bounds_raster : first_raster bounds_file (sum_of ["lat"; "nv"]).
Proof. exists [], "lat_bnds", [("elevation", sum_of ["time"; "lat"; "lon"])]. split; [reflexivity|]. split; [cbn; lia|]. intros m w []. Qed.
Lemma other_raster : first_raster other_grid_file (sum_of ["lat"; "lon"]).
Proof. exists [], "elevation", []. split; [reflexivity|]. split; [cbn; lia|]. intros m w []. Qed.
Lemma time_last_raster : first_raster time_last_file (sum_of ["lat"; "lon"; "time"]).
Proof. exists [], "elevation", []. split; [reflexivity|]. split; [cbn; lia|]. intros m w []. Qed.
Lemma bounds_refused : well_formed bounds_file /\ In ("elevation", sum_of ["time"; "lat"; "lon"]) (ds_vars bounds_file) /\
  (forall bb, try_subset (Some bounds_file) bb = Raise KeyError) /\ exists bb r, try_subset (Some plain_file) bb = Ok (Some r).
Proof.
  split; [exact bounds_wf|]. split; [right; left; reflexivity|]. split.
  - intros bb. apply (proj2 (key_error _ _ "lon" "lat" bb bounds_wf bounds_raster (lon_first _) (lat_first _ [] (fun H => H)))).
    intros [H _]. specialize (H (along "lon") ltac:(right; left; reflexivity) "lon" (or_introl eq_refl)). cbn in H. intuition discriminate.
  - exists (0, 2, 0, 2)%Q. eexists. vm_compute. reflexivity.
Qed.
Lemma other_refused : well_formed other_grid_file /\ In ("elevation", sum_of ["lat"; "lon"]) (ds_vars other_grid_file) /\ (forall bb, try_subset (Some other_grid_file) bb = Raise KeyError).
Proof.
  split; [exact other_wf|]. split; [left; reflexivity|]. intros bb.
  apply (proj2 (key_error _ _ "x" "lat" bb other_wf other_raster (x_first _) (lat_first _ [("x", along "x")] ltac:(cbn; intuition discriminate)))).
  intros [H _]. specialize (H (along "x") ltac:(right; right; left; reflexivity) "x" (or_introl eq_refl)). cbn in H. intuition discriminate.
Qed.
Lemma time_last_refused : well_formed time_last_file /\ (forall bb, try_subset (Some time_last_file) bb = Ok None) /\ exists bb r, try_subset (Some plain_file) bb = Ok (Some r).
Proof.
  split; [exact time_last_wf|]. split; [|exists (0, 2, 0, 2)%Q; eexists; vm_compute; reflexivity].
  intros bb. apply (leading_axis _ _ ["lat"] "lon" "time" "lon" "lat" (along "lon") (along "lat") bb time_last_wf time_last_raster eq_refl (lon_first _) (lat_first _ [] (fun H => H))); cbn; auto.
Qed.
