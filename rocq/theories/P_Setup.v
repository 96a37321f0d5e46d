(** Proofs about the argument handling of generate_mesh. *)
From Coq Require Import List Arith Bool ZArith QArith Qround Lia Lqa.
From Verif Require Import M_Base M_Numpy M_Edges M_FixMesh M_Clean M_Sdf M_Generate M_Setup S_Setup.
Import ListNotations.
Open Scope Q_scope.

Lemma Qlt_bool_true a b : Qlt_bool a b = true <-> a < b.
Proof.
  unfold Qlt_bool. rewrite negb_true_iff. destruct (Qle_bool b a) eqn:E; split; intros H; try discriminate; try reflexivity.
  - apply Qle_bool_iff in E. lra.
  - destruct (Qlt_le_dec a b) as [X|X]; [exact X|]. apply Qle_bool_iff in X. congruence.
Qed.
Lemma Qlt_bool_false a b : Qlt_bool a b = false <-> b <= a.
Proof. unfold Qlt_bool. rewrite negb_false_iff. apply Qle_bool_iff. Qed.

(** * Sizing *)
Lemma usable_spec h : match usable h with Some q => good_minimum h q | None => forall q, ~ good_minimum h q end.
Proof.
  unfold usable, good_minimum. destruct h as [[q|p|]|]; try (intros r (E & _); discriminate).
  destruct (Qlt_bool 0 q) eqn:L; [apply Qlt_bool_true in L; tauto|]. apply Qlt_bool_false in L. intros r (E & P). injection E as <-. lra.
Qed.
Lemma positive_In vals q : In q (positive_values vals) <-> In (Fin q) vals /\ 0 < q.
Proof.
  unfold positive_values. rewrite in_flat_map. split.
  - intros (v & I & J). destruct v as [r|p|]; try destruct J. destruct (Qlt_bool 0 r) eqn:L; [|destruct J]. destruct J as [<-|[]]. apply Qlt_bool_true in L. tauto.
  - intros (I & P). exists (Fin q). split; [exact I|]. apply Qlt_bool_true in P. rewrite P. left. reflexivity.
Qed.
Lemma min_list_spec l q : min_list l = Ok q -> In q l /\ forall r, In r l -> q <= r.
Proof.
  destruct l as [|x l]; [discriminate|]. cbn. intros E. injection E as <-.
  assert (G : forall l a, (fold_left (fun m y => if Qle_bool m y then m else y) l a <= a) /\ (forall r, In r l -> fold_left (fun m y => if Qle_bool m y then m else y) l a <= r) /\
     (fold_left (fun m y => if Qle_bool m y then m else y) l a = a \/ In (fold_left (fun m y => if Qle_bool m y then m else y) l a) l)).
  { clear. induction l as [|y l IH]; intros a; cbn; [split; [apply Qle_refl|split; [intros r []|left; reflexivity]]|].
    destruct (IH (if Qle_bool a y then a else y)) as (A & B & C). destruct (Qle_bool a y) eqn:E.
    - apply Qle_bool_iff in E. split; [exact A|]. split; [intros r [<-|I]; [eapply Qle_trans; eassumption|apply B, I]|destruct C; tauto].
    - assert (y <= a). { destruct (Qlt_le_dec a y) as [Z|Z]; [|exact Z]. apply Qlt_le_weak, Qle_bool_iff in Z. congruence. }
      split; [eapply Qle_trans; eassumption|]. split; [intros r [<-|I]; [exact A|apply B, I]|]. destruct C as [->|C]; right; [left; reflexivity|right; exact C]. }
  destruct (G l x) as (A & B & C). split; [destruct C as [->|C]; [left; reflexivity|right; exact C]|]. intros r [<-|I]; [exact A|apply B, I].
Qed.
Lemma grid_sizing hmin vals eval given :
  (forall q, good_minimum hmin q -> unpack_sizing (SGrid hmin vals eval) given = Ok (eval, Some q, hmin)) /\
  ((forall q, ~ good_minimum hmin q) -> (exists r, In (Fin r) vals /\ 0 < r) ->
     exists q, unpack_sizing (SGrid hmin vals eval) given = Ok (eval, Some q, Some (Fin q)) /\ least_positive vals q) /\
  ((forall q, ~ good_minimum hmin q) -> (forall r, In (Fin r) vals -> r <= 0) -> unpack_sizing (SGrid hmin vals eval) given = Raise ValueError).
Proof.
  pose proof (usable_spec hmin) as U. unfold unpack_sizing. destruct (usable hmin) as [u|].
  - split; [intros q (E & _); destruct U as (U & _); rewrite E in U; injection U as ->; reflexivity|]. split; intros N; destruct (N u U).
  - split; [intros q H; destruct (U q H)|]. split.
    + intros _ (r & I & P). destruct (min_list (positive_values vals)) as [q| |] eqn:M.
      * exists q. split; [reflexivity|]. apply min_list_spec in M. destruct M as (A & B). apply positive_In in A. split; [tauto|]. split; [tauto|]. intros s J Q. apply B, positive_In. tauto.
      * exfalso. assert (X : In r (positive_values vals)) by (apply positive_In; tauto). destruct (positive_values vals); [destruct X|discriminate].
      * destruct (positive_values vals); discriminate.
    + intros _ N. destruct (positive_values vals) as [|q l] eqn:E; [reflexivity|]. exfalso. assert (X : In q (positive_values vals)) by (rewrite E; left; reflexivity).
      apply positive_In in X. destruct X as (X & Y). specialize (N q X). lra.
Qed.

(** * Boxes *)
Lemma in_pairs_ok l : (exists box, in_pairs l = Ok box) <-> Nat.even (length l) = true.
Proof.
  assert (G : forall n l, (length l <= n)%nat -> (exists box, in_pairs l = Ok box) <-> Nat.even (length l) = true).
  { clear l. induction n as [|n IH]; intros l L.
    - destruct l; [|cbn in L; lia]. split; [reflexivity|intros _; exists []; reflexivity].
    - destruct l as [|a [|b r]]; [split; [reflexivity|intros _; exists []; reflexivity]|split; [intros (x & E); discriminate|discriminate]|]. cbn [in_pairs length Nat.even].
      rewrite <- (IH r) by (cbn in L; lia). split.
      + intros (box & E). destruct (in_pairs r) as [t| |]; try discriminate. exists t. reflexivity.
      + intros (t & ->). eexists. reflexivity. }
  apply (G (length l)). lia.
Qed.
Lemma boxes_accepted b : (exists box, (let! l := check_bbox b in in_pairs l) = Ok box) <-> exists l, b = BTuple l /\ Nat.even (length l) = true /\ (2 <= length l)%nat.
Proof.
  destruct b as [l|]; cbn [check_bbox].
  2:{ split; [intros (box & E); discriminate|intros (l & E & _); discriminate]. }
  destruct (Nat.eqb_spec (length l / 2) 0) as [Z|Z]; cbn [bind].
  - split; [intros (box & E); discriminate|]. intros (l' & E & _ & L). injection E as <-. exfalso. pose proof (Nat.div_le_mono 2 (length l) 2 ltac:(lia) L) as D. rewrite Z in D. cbn in D. lia.
  - rewrite in_pairs_ok. split.
    + intros E. exists l. split; [reflexivity|]. split; [exact E|]. destruct l as [|a [|c l]]; cbn in Z; cbn; lia.
    + intros (l' & E & Ev & _). injection E as <-. exact Ev.
Qed.
(** * The lattice *)
Lemma combine_app {A B} (a a' : list A) (b b' : list B) : length a = length b -> combine (a ++ a') (b ++ b') = combine a b ++ combine a' b'.
Proof. revert b. induction a as [|x a IH]; intros [|y b] L; try discriminate; [reflexivity|]. cbn. f_equal. apply IH. cbn in L. lia. Qed.
Lemma combine_repeat {A B} (x : A) (l : list B) : combine (repeat x (length l)) l = map (fun y => (x, y)) l.
Proof. induction l as [|y l IH]; [reflexivity|]. cbn. f_equal. exact IH. Qed.
Lemma flat_repeat_length {A} (xs : list A) n : length (flat_map (fun x => repeat x n) xs) = (length xs * n)%nat.
Proof. induction xs as [|x xs IH]; [reflexivity|]. cbn. rewrite app_length, repeat_length, IH. lia. Qed.
Lemma tile_length {A B} (xs : list A) (c : list B) : length (List.concat (map (fun _ => c) xs)) = (length xs * length c)%nat.
Proof. induction xs as [|x xs IH]; [reflexivity|]. cbn. rewrite app_length, IH. lia. Qed.
Lemma lattice_columns x0 x1 y0 y1 h : two_columns (mgrid (map (fun b => mgrid1 (fst b) (snd b) h) [(x0, x1); (y0, y1)])) = Ok (lattice (x0, x1, y0, y1) h).
Proof.
  cbn [map fst snd lattice]. set (xs := mgrid1 x0 x1 h). set (ys := mgrid1 y0 y1 h). cbn [mgrid map fold_right].
  replace (flat_map (fun x => repeat x 1) ys) with ys by (clear; induction ys as [|y l IH]; [reflexivity|cbn; f_equal; exact IH]). rewrite Nat.mul_1_r.
  unfold two_columns. cbn [List.concat]. rewrite app_nil_r.
  set (A := flat_map (fun x => repeat x (length ys)) xs). set (B := List.concat (map (fun _ => ys) xs)).
  assert (LA : length A = (length xs * length ys)%nat) by apply flat_repeat_length. assert (LB : length B = (length xs * length ys)%nat) by apply tile_length.
  rewrite app_length, LA, LB. set (n := (length xs * length ys)%nat) in *. replace (n + n)%nat with (2 * n)%nat by lia. rewrite Nat.even_mul. cbn [Nat.even orb].
  rewrite (Nat.mul_comm 2 n), Nat.div_mul by lia. rewrite firstn_app, skipn_app, LA, Nat.sub_diag, firstn_O, app_nil_r, <- LA, firstn_all, skipn_all. cbn [app skipn]. f_equal.
  unfold A, B. clear. induction xs as [|x xs IH]; [reflexivity|]. cbn [flat_map map List.concat]. rewrite combine_app by (rewrite repeat_length; reflexivity). rewrite combine_repeat, IH. reflexivity.
Qed.
Lemma initial_points_four h geps x0 x1 y0 y1 fh fd pfix rand :
  initial_points h geps [(x0, x1); (y0, y1)] fh fd (Some pfix) rand = generate_initial_points h geps (x0, x1, y0, y1) fh fd pfix rand.
Proof. unfold initial_points, generate_initial_points. rewrite lattice_columns. reflexivity. Qed.
Lemma four_numbers h geps x0 x1 y0 y1 fh fd pfix rand : in_pairs [x0; x1; y0; y1] = Ok [(x0, x1); (y0, y1)] /\
  initial_points h geps [(x0, x1); (y0, y1)] fh fd (Some pfix) rand = generate_initial_points h geps (x0, x1, y0, y1) fh fd pfix rand.
Proof. split; [reflexivity|apply initial_points_four]. Qed.
Lemma six_accepted : exists l box p x, check_bbox (BTuple l) = Ok l /\ in_pairs l = Ok box /\ firstn 2 box = [(0, 1); (0, 1)] /\
  initial_points 1 (1 # 1000) box (fun p => Ok (map (fun _ => 1) p)) (fun p => Ok (map (fun _ => - (1)) p)) (Some []) (repeat 0 12) = Ok p /\
  In x p /\ ~ in_rectangle 0 1 0 1 1 x.
Proof.
  exists [0; 1; 0; 1; 5; 6]. eexists. eexists. exists (0 + 0 * 1, 5 + 0 * 1). split; [reflexivity|]. split; [reflexivity|]. split; [reflexivity|]. split; [vm_compute; reflexivity|].
  split; [vm_compute; tauto|]. unfold in_rectangle. cbn. lra.
Qed.

(** * Calls *)
Section Calls.
  Variable triangulate : nat -> list point -> res (list point * list tri).
  Variable forces : dfun -> list point -> list tri -> res (list point).
  Variable kleb : Z * Z -> Z * Z -> bool.
  Variable deps : Q.
  Variable rand : list Q.
  Notation call := (call triangulate forces kleb deps rand).
  Lemma call_good fd fh x0 x1 y0 y1 h z (pf : option (list point)) pts lock dt o : 0 < h -> (0 < z)%Z ->
    o = {| o_bbox := Some (BTuple [x0; x1; y0; y1]); o_min := Some h; o_max_iter := CInt z; o_pfix := match pf with Some l => PPoints l | None => PNone end;
           o_points := pts; o_lock := lock; o_dt := dt |} ->
    call (DFun fd) (SFun fh) o =
      (let pfix := match pf with Some l => l | None => [] end in
       let! p := match pts with Some p => Ok p | None => generate_initial_points h ((1 # 1000) * h) (x0, x1, y0, y1) fh fd pfix rand end in
       generate_mesh triangulate fd (forces fh) kleb ((1 # 1000) * h) deps dt pfix lock (Z.to_nat z) p).
  Proof.
    intros Ph Pz ->. unfold M_Setup.call. cbn [o_bbox o_min o_max_iter o_pfix o_points o_lock o_dt unpack_domain unpack_sizing bind snd fst check_bbox in_pairs].
    replace (length [x0; x1; y0; y1] / 2 =? 0)%nat with false by reflexivity. cbn [bind in_pairs]. apply Qlt_bool_true in Ph. rewrite Ph. cbn [negb]. apply Z.ltb_lt in Pz. rewrite Pz. cbn [negb].
    assert (U : unpack_pfix (match pf with Some l => PPoints l | None => PNone end) = Some (match pf with Some l => l | None => [] end)) by (destruct pf; reflexivity). rewrite U.
    rewrite initial_points_four. apply Z.ltb_lt in Pz.
    destruct (match pts with Some p => Ok p | None => _ end) as [p| |]; cbn [bind]; try reflexivity.
    destruct (Nat.eqb_spec (length p) 0) as [L|L]; [|reflexivity]. unfold generate_mesh. destruct (Z.to_nat z) eqn:Ez; [lia|]. rewrite L. reflexivity.
  Qed.
  Lemma call_float domain e o q r : o_max_iter o = CFloat q -> call domain e o <> Ok r.
  Proof.
    intros F. unfold M_Setup.call. destruct (unpack_domain domain (o_bbox o)) as [d| |]; cbn [bind]; try discriminate. destruct (unpack_sizing e (o_min o)) as [[[fh hm] g]| |]; cbn [bind]; try discriminate.
    destruct (check_bbox (snd d)) as [b| |]; cbn [bind]; try discriminate. destruct (in_pairs b) as [box| |]; cbn [bind]; try discriminate. destruct hm as [h|]; [|discriminate].
    destruct (negb (Qlt_bool 0 h)); [discriminate|]. rewrite F. destruct (negb (Qlt_bool 0 q)); [discriminate|].
    destruct (match o_points o with Some p => Ok p | None => _ end) as [p| |]; cbn [bind]; try discriminate. destruct (length p =? 0)%nat; discriminate.
  Qed.
  Lemma call_empty_list domain e o r : o_pfix o = PEmpty -> o_points o = None -> call domain e o <> Ok r.
  Proof.
    intros F P. unfold M_Setup.call. destruct (unpack_domain domain (o_bbox o)) as [d| |]; cbn [bind]; try discriminate. destruct (unpack_sizing e (o_min o)) as [[[fh hm] g]| |]; cbn [bind]; try discriminate.
    destruct (check_bbox (snd d)) as [b| |]; cbn [bind]; try discriminate. destruct (in_pairs b) as [box| |]; cbn [bind]; try discriminate. destruct hm as [h|]; [|discriminate].
    destruct (negb (Qlt_bool 0 h)); [discriminate|]. destruct (negb _); [discriminate|]. rewrite P, F. cbn [unpack_pfix].
    assert (X : forall x, initial_points h ((1 # 1000) * h) box fh (fst d) None rand <> Ok x).
    { intros x. unfold initial_points. destruct (two_columns _) as [p| |]; cbn [bind]; try discriminate. destruct (fh p) as [r0| |]; cbn [bind]; try discriminate. destruct (min_list _) as [m| |]; cbn [bind]; try discriminate.
      destruct (negb _); [discriminate|]. destruct (bool_index p _) as [p1| |]; cbn [bind]; try discriminate. destruct (fst d p1) as [dd| |]; cbn [bind]; try discriminate. destruct (bool_index p1 _) as [p2| |]; cbn [bind]; discriminate. }
    destruct (initial_points _ _ _ _ _ _ _) as [p| |]; cbn [bind]; try discriminate. destruct (X p eq_refl).
  Qed.
  Lemma call_minimum fd fh l o : o_bbox o = Some (BTuple l) -> Nat.even (length l) = true -> (2 <= length l)%nat ->
    (o_min o = None -> call (DFun fd) (SFun fh) o = Raise TypeError) /\ (forall q, o_min o = Some q -> q <= 0 -> call (DFun fd) (SFun fh) o = Raise AssertionError).
  Proof.
    intros B Ev L. unfold M_Setup.call. rewrite B. cbn [unpack_domain unpack_sizing bind snd fst].
    destruct (proj2 (boxes_accepted (BTuple l))) as (box & E); [exists l; tauto|]. destruct (check_bbox (BTuple l)) as [b| |]; cbn [bind] in *; try discriminate. rewrite E. cbn [bind].
    split; [intros ->; reflexivity|]. intros q -> N. apply Qlt_bool_false in N. rewrite N. reflexivity.
  Qed.
  Lemma call_count fd fh l o h : o_bbox o = Some (BTuple l) -> Nat.even (length l) = true -> (2 <= length l)%nat -> o_min o = Some h -> 0 < h ->
    match o_max_iter o with CInt z => (z <= 0)%Z | CFloat q => q <= 0 end -> call (DFun fd) (SFun fh) o = Raise AssertionError.
  Proof.
    intros B Ev L M Ph C. unfold M_Setup.call. rewrite B, M. cbn [unpack_domain unpack_sizing bind snd fst].
    destruct (proj2 (boxes_accepted (BTuple l))) as (box & E); [exists l; tauto|]. destruct (check_bbox (BTuple l)) as [b| |]; cbn [bind] in *; try discriminate. rewrite E. cbn [bind].
    apply Qlt_bool_true in Ph. rewrite Ph. cbn [negb]. destruct (o_max_iter o) as [z|q]; [apply Z.ltb_ge in C|apply Qlt_bool_false in C]; rewrite C; reflexivity.
  Qed.
  Lemma call_no_box fd e o : o_bbox o = None -> call (DFun fd) e o = Raise KeyError.
  Proof. intros E. unfold M_Setup.call. rewrite E. reflexivity. Qed.
  Lemma call_other e o fd : call DOther e o = Raise ValueError /\ (forall b, o_bbox o = Some b -> call (DFun fd) SOther o = Raise ValueError).
  Proof. split; [reflexivity|]. intros b E. unfold M_Setup.call. rewrite E. reflexivity. Qed.
  Lemma call_grid domain hmin vals eval o r : call domain (SGrid hmin vals eval) o = Ok r ->
    exists q, 0 < q /\ (good_minimum hmin q \/ ((forall u, ~ good_minimum hmin u) /\ least_positive vals q)) /\
      forall given, call domain (SGrid (Some (Fin q)) vals eval) {| o_bbox := o_bbox o; o_min := given; o_max_iter := o_max_iter o; o_pfix := o_pfix o; o_points := o_points o; o_lock := o_lock o; o_dt := o_dt o |} = Ok r.
  Proof.
    intros E. destruct (grid_sizing hmin vals eval (o_min o)) as (G1 & G2 & G3). pose proof (usable_spec hmin) as U.
    assert (X : exists q, 0 < q /\ (good_minimum hmin q \/ ((forall u, ~ good_minimum hmin u) /\ least_positive vals q)) /\ exists h', unpack_sizing (SGrid hmin vals eval) (o_min o) = Ok (eval, Some q, h')).
    { destruct (usable hmin) as [q|] eqn:Us.
      - exists q. split; [apply U|]. split; [left; exact U|]. exists hmin. apply G1, U.
      - destruct (positive_values vals) as [|v l] eqn:PV.
        + exfalso. assert (Np : forall r0, In (Fin r0) vals -> r0 <= 0).
          { intros r0 I. destruct (Qlt_le_dec 0 r0) as [Z|Z]; [|exact Z]. exfalso. assert (J : In r0 (positive_values vals)) by (apply positive_In; tauto). rewrite PV in J. destruct J. }
          unfold M_Setup.call in E. destruct (unpack_domain domain (o_bbox o)); cbn [bind] in E; try discriminate. rewrite (G3 U Np) in E. discriminate.
        + assert (I : In v (positive_values vals)) by (rewrite PV; left; reflexivity). apply positive_In in I. destruct (G2 U (ex_intro _ v I)) as (q & Q1 & Q2). exists q. split; [apply Q2|]. split; [right; tauto|]. eexists. exact Q1. }
    destruct X as (q & P & K & h' & Eq). exists q. split; [exact P|]. split; [exact K|]. intros given.
    unfold M_Setup.call in *. cbn [o_bbox o_min o_max_iter o_pfix o_points o_lock o_dt]. destruct (unpack_domain domain (o_bbox o)) as [d| |]; cbn [bind] in *; try discriminate. rewrite Eq in E. cbn [bind] in E.
      destruct (grid_sizing (Some (Fin q)) vals eval given) as (H1 & _). rewrite (H1 q) by (split; [reflexivity|exact P]). cbn [bind]. exact E.
  Qed.
End Calls.

Definition only (b : box_value) (h : Q) : options :=
  {| o_bbox := Some b; o_min := Some h; o_max_iter := o_max_iter default_options; o_pfix := o_pfix default_options; o_points := o_points default_options;
     o_lock := o_lock default_options; o_dt := o_dt default_options |}.
Lemma call_defaults triangulate forces kleb deps rand fd fh x0 x1 y0 y1 h : 0 < h ->
  call triangulate forces kleb deps rand (DFun fd) (SFun fh) (only (BTuple [x0; x1; y0; y1]) h) =
    (let! p := generate_initial_points h ((1 # 1000) * h) (x0, x1, y0, y1) fh fd [] rand in
     generate_mesh triangulate fd (forces fh) kleb ((1 # 1000) * h) deps (1 # 5) [] false 50 p).
Proof. intros Hh. exact (call_good triangulate forces kleb deps rand fd fh x0 x1 y0 y1 h 50 None None false (1 # 5) _ Hh eq_refl eq_refl). Qed.
Lemma call_needs triangulate forces kleb deps rand fd fh : call triangulate forces kleb deps rand (DFun fd) (SFun fh) default_options = Raise KeyError.
Proof. reflexivity. Qed.
