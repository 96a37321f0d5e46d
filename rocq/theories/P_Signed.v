(** Proofs about the signed distance function of a shoreline. *)
From Coq Require Import List Arith Bool ZArith QArith Qabs Lia Lqa.
From Verif Require Import M_Base M_Edges M_Sdf M_Inpoly M_Shore M_Signed S_Edges S_Sdf S_Inpoly S_Signed P_Edges P_Sdf P_Inpoly.
Import ListNotations.
Open Scope Q_scope.

(** * The segments named by the polygon edges *)
Lemma nan_rows_of ls : nan_rows (rows_of ls) = nan_column (map (@length xy) ls).
Proof.
  unfold nan_rows, rows_of, nan_column. induction ls as [|l ls IH]; [reflexivity|]. cbn [flat_map map]. rewrite map_app. f_equal; [|exact IH].
  rewrite map_app. f_equal. rewrite map_map. clear. induction l as [|a l IH]; cbn; [reflexivity|]. f_equal. exact IH.
Qed.
Lemma points_of_rows ls : points_of (rows_of ls) = concat ls.
Proof.
  unfold points_of, rows_of. induction ls as [|l ls IH]; [reflexivity|]. cbn [flat_map concat]. etransitivity; [apply flat_map_app|]. apply (f_equal2 (@app xy)); [|exact IH].
  etransitivity; [apply flat_map_app|]. cbn. rewrite app_nil_r. clear. induction l as [|a l IH]; cbn; [reflexivity|]. apply (f_equal (cons a)). exact IH.
Qed.
Definition nodes_of (ls : list (list xy)) : list xy := flat_map (fun l => l ++ [(0, 0)]) ls.
Lemma nan_to_num_rows ls : nan_to_num (rows_of ls) = nodes_of ls.
Proof.
  unfold nan_to_num, rows_of, nodes_of. induction ls as [|l ls IH]; [reflexivity|]. cbn [flat_map]. rewrite map_app. f_equal; [|exact IH].
  rewrite map_app. f_equal. rewrite map_map. apply map_id.
Qed.
Definition used (l : list xy) : list seg := sides (removelast l) ++ [(last l (0, 0), hd (0, 0) l)].
Definition part_edges (p : Z * nat) : list (Z * Z) :=
  map (fun k => (fst p + Z.of_nat k, fst p + Z.of_nat k + 1)%Z) (seq 0 (snd p - 2)) ++ [(fst p + Z.of_nat (snd p) - 1, fst p)%Z].

Lemma sides_nth l (d : xy) : sides l = map (fun k => (nth k l d, nth (S k) l d)) (seq 0 (length l - 1)).
Proof.
  induction l as [|a l IH]; [reflexivity|]. destruct l as [|b l]; [reflexivity|].
  change (sides (a :: b :: l)) with ((a, b) :: sides (b :: l)). rewrite IH. cbn [length]. rewrite !Nat.sub_succ, !Nat.sub_0_r.
  cbn [seq map nth]. f_equal. rewrite <- seq_shift, map_map. reflexivity.
Qed.
Lemma nth_removelast (l : list xy) d : forall k, (k < length l - 1)%nat -> nth k (removelast l) d = nth k l d.
Proof.
  induction l as [|a l IH]; intros k H; [cbn in H; lia|]. destruct l as [|b l]; [cbn in H; lia|]. cbn [removelast].
  destruct k; [reflexivity|]. cbn [nth]. apply IH. cbn [length] in *. lia.
Qed.
Lemma length_removelast (l : list xy) : length (removelast l) = (length l - 1)%nat.
Proof. induction l as [|a l IH]; [reflexivity|]. destruct l as [|b l]; [reflexivity|]. cbn [removelast length] in *. rewrite IH. lia. Qed.
Lemma last_nth (l : list xy) d : last l d = nth (length l - 1) l d.
Proof.
  induction l as [|a l IH]; [reflexivity|]. destruct l as [|b l]; [reflexivity|].
  change (last (a :: b :: l) d) with (last (b :: l) d). rewrite IH. cbn [length]. rewrite !Nat.sub_succ, !Nat.sub_0_r. reflexivity.
Qed.
Lemma hd_nth (l : list xy) d : hd d l = nth 0 l d.
Proof. destruct l; reflexivity. Qed.

Lemma part_segments pre l rest : l <> [] ->
  edge_segments (pre ++ l ++ rest) (part_edges (Z.of_nat (length pre), length l)) = used l.
Proof.
  intros Hl. assert (H0 : (0 < length l)%nat) by (destruct l; [congruence|cbn; lia]).
  assert (N : forall k, (k < length l)%nat -> nth (Z.to_nat (Z.of_nat (length pre) + Z.of_nat k)) (pre ++ l ++ rest) (0, 0) = nth k l (0, 0)).
  { intros k Hk. rewrite <- Nat2Z.inj_add, Nat2Z.id, app_nth2_plus, app_nth1 by lia. reflexivity. }
  unfold edge_segments, part_edges, used. rewrite map_app, map_map. cbn [fst snd map]. f_equal.
  - rewrite (sides_nth _ (0, 0)), length_removelast. replace (length l - 1 - 1)%nat with (length l - 2)%nat by lia.
    apply map_ext_in. intros k Hk. apply in_seq in Hk. rewrite !nth_removelast by lia. rewrite N by lia.
    f_equal. replace (Z.of_nat (length pre) + Z.of_nat k + 1)%Z with (Z.of_nat (length pre) + Z.of_nat (S k))%Z by lia. apply N. lia.
  - f_equal. rewrite last_nth, hd_nth. f_equal.
    + replace (Z.of_nat (length pre) + Z.of_nat (length l) - 1)%Z with (Z.of_nat (length pre) + Z.of_nat (length l - 1))%Z by lia. apply N. lia.
    + rewrite <- (N 0%nat) by lia. f_equal. lia.
Qed.
Lemma edge_segments_app n a b : edge_segments n (a ++ b) = edge_segments n a ++ edge_segments n b.
Proof. apply map_app. Qed.
Lemma nodes_cons l ls : nodes_of (l :: ls) = l ++ (0, 0) :: nodes_of ls.
Proof. unfold nodes_of. cbn [flat_map]. rewrite <- app_assoc. reflexivity. Qed.
Lemma shift_nodes (pre l : list xy) ls : pre ++ l ++ (0, 0) :: nodes_of ls = (pre ++ l ++ [(0, 0)]) ++ nodes_of ls.
Proof. rewrite <- !app_assoc. reflexivity. Qed.
Lemma shift_length (pre l : list xy) : (Z.of_nat (length pre) + Z.of_nat (length l) + 1)%Z = Z.of_nat (length (pre ++ l ++ [(0, 0)])).
Proof. rewrite !app_length. cbn [length]. lia. Qed.
Lemma all_segments ls : Forall (fun l => l <> []) ls -> forall pre,
  edge_segments (pre ++ nodes_of ls) (flat_map part_edges (part_offsets (Z.of_nat (length pre)) (map (@length xy) ls))) = flat_map used ls.
Proof.
  induction 1 as [|l ls Hl H IH]; intros pre; [reflexivity|]. rewrite nodes_cons. cbn [map part_offsets flat_map].
  rewrite edge_segments_app. f_equal; [now apply part_segments|]. rewrite shift_nodes, shift_length. apply IH.
Qed.
Lemma all_valid ls : Forall (fun l => l <> []) ls -> forall pre,
  valid_edges (pre ++ nodes_of ls) (flat_map part_edges (part_offsets (Z.of_nat (length pre)) (map (@length xy) ls))).
Proof.
  induction 1 as [|l ls Hl H IH]; intros pre e He; [destruct He|]. rewrite nodes_cons. cbn [map part_offsets flat_map] in He.
  assert (H0 : (0 < length l)%nat) by (destruct l; [congruence|cbn; lia]).
  apply in_app_or in He. destruct He as [He|He].
  - unfold part_edges in He. apply in_app_or in He. rewrite !app_length. cbn [fst snd length] in *. destruct He as [He|[<-|[]]].
    + apply in_map_iff in He. destruct He as (k & <- & Hk). apply in_seq in Hk. cbn [fst snd]. lia.
    + cbn [fst snd]. lia.
  - rewrite shift_length in He. rewrite shift_nodes. exact (IH _ e He).
Qed.
Definition ring_edges_of (ls : list (list xy)) : list (Z * Z) := flat_map part_edges (part_offsets 0 (map (@length xy) ls)).
Lemma poly_edges_rows ls : ls <> [] -> get_poly_edges (nan_rows (rows_of ls)) = Ok (ring_edges_of ls).
Proof.
  intros H. rewrite nan_rows_of. pose proof (poly_edges_by_part (map (@length xy) ls) 0) as G. cbn [repeat] in G. rewrite app_nil_r in G.
  apply G. destruct ls; [congruence|discriminate].
Qed.
Lemma ring_segments_rows ls : Forall (fun l => l <> []) ls ->
  edge_segments (nan_to_num (rows_of ls)) (ring_edges_of ls) = flat_map used ls /\ valid_edges (nan_to_num (rows_of ls)) (ring_edges_of ls).
Proof.
  intros H. rewrite nan_to_num_rows. split; [apply (all_segments ls H [])|apply (all_valid ls H [])].
Qed.

(** * The kernel with a tolerance *)
Lemma fk_skip_mono ftol q s : 0 <= ftol -> fk_skip 0 q s = false -> fk_skip ftol q s = false.
Proof.
  intros Hf. destruct s as [[x1 y1] [x2 y2]]. unfold fk_skip. rewrite skip_false_iff. intros [A B]. rewrite orb_false_iff, !Qltb_false. split; lra.
Qed.
Lemma fk_tog_crosses ftol q s : 0 <= ftol -> fk_tog ftol q s = true <-> crosses q s.
Proof.
  intros Hf. unfold fk_tog. rewrite andb_true_iff, negb_true_iff, fk_crossing0. split; [tauto|]. intros H. split; auto.
  apply fk_skip_mono; auto. apply fk_skip0. now apply crosses_range.
Qed.
Lemma fk_boundary_mono ftol q s : 0 <= ftol -> fk_boundary 0 q s = true -> fk_boundary ftol q s = true.
Proof.
  intros Hf. destruct s as [[x1 y1] [x2 y2]]. unfold fk_boundary.
  destruct (negb (Qeq_bool (x2 - x1) 0) || negb (Qeq_bool (y2 - y1) 0)); auto.
  match goal with |- (if ?c then _ else _) = true -> _ => destruct c end; auto. rewrite !Qle_bool_iff. intros. lra.
Qed.
Lemma fk_hit_on ftol q s : 0 <= ftol -> on_segment q s -> fk_hit ftol q s = true.
Proof.
  intros Hf H. unfold fk_hit. apply fk_hit0 in H. unfold fk_hit in H. rewrite andb_true_iff, negb_true_iff in *. destruct H as [A B].
  split; [now apply fk_skip_mono|now apply fk_boundary_mono].
Qed.
Lemma fk_hit_near ftol q s : fk_hit ftol q s = true -> exists p, on_segment p s /\ Qabs (fst q - fst p) + Qabs (snd q - snd p) <= ftol.
Proof. unfold fk_hit. rewrite andb_true_iff. intros [_ H]. now apply fk_boundary_near. Qed.
Lemma degenerate_tog ftol q a b : 0 <= ftol -> same_place a b -> fk_tog ftol q (a, b) = false.
Proof.
  intros Hf [_ E]. destruct (fk_tog ftol q (a, b)) eqn:T; auto. exfalso. apply fk_tog_crosses in T; auto. destruct T as [T _]. lra.
Qed.
Lemma degenerate_hit ftol q a b : same_place a b -> fk_hit ftol q (a, b) = false.
Proof.
  intros E. destruct (fk_hit ftol q (a, b)) eqn:T; auto. exfalso. apply fk_hit_near in T. destruct T as (p & [N _] & _). now apply N.
Qed.

(** * Rings whose first point comes twice at the end *)
Lemma sides_snoc l (a b : xy) : sides (l ++ [a; b]) = sides (l ++ [a]) ++ [(a, b)].
Proof.
  induction l as [|x l IH]; [reflexivity|]. destruct l as [|y l]; [reflexivity|].
  change ((x :: y :: l) ++ [a; b]) with (x :: y :: (l ++ [a; b])). change ((x :: y :: l) ++ [a]) with (x :: y :: (l ++ [a])).
  change (sides (x :: y :: (l ++ [a; b]))) with ((x, y) :: sides ((y :: l) ++ [a; b])).
  change (sides (x :: y :: (l ++ [a]))) with ((x, y) :: sides ((y :: l) ++ [a])). rewrite IH. reflexivity.
Qed.
Lemma removelast_two (l : list xy) a b : removelast (l ++ [a; b]) = l ++ [a].
Proof. change [a; b] with ([a] ++ [b]). rewrite app_assoc. apply removelast_last. Qed.
Lemma last_two (l : list xy) a b d : last (l ++ [a; b]) d = b.
Proof. change [a; b] with ([a] ++ [b]). rewrite app_assoc. apply last_last. Qed.
Lemma par_cons {A} (f : A -> bool) x l : par f (x :: l) = xorb (f x) (par f l).
Proof. reflexivity. Qed.
Lemma par_app {A} (f : A -> bool) l l' : par f (l ++ l') = xorb (par f l) (par f l').
Proof. induction l as [|x l IH]; cbn [app]; [now destruct (par f l')|]. rewrite !par_cons, IH. now rewrite xorb_assoc. Qed.
Lemma used_same (f : seg -> bool) l : (forall a b, same_place a b -> f (a, b) = false) -> shut l ->
  par f (used l) = par f (sides l) /\ existsb f (used l) = existsb f (sides l).
Proof.
  intros Hf (p & m & q & r & -> & H1 & H2). unfold used. change (p :: m ++ [q; r]) with ((p :: m) ++ [q; r]).
  rewrite removelast_two, last_two, sides_snoc. change (hd (0, 0) ((p :: m) ++ [q; r])) with p. rewrite !par_app, !existsb_app, !par_cons. cbn [existsb].
  assert (E : same_place r p) by (destruct H2 as [A B]; split; lra).
  assert (E' : same_place q r). { destruct H1 as [A B], H2 as [C D]. split; lra. }
  unfold seg, xy in *. rewrite (Hf _ _ E), (Hf _ _ E'). split; reflexivity.
Qed.
Lemma par_flat {A B} (f : B -> bool) (g : A -> list B) l : par f (flat_map g l) = par (fun a => par f (g a)) l.
Proof. induction l as [|x l IH]; [reflexivity|]. cbn [flat_map]. rewrite par_app, IH. reflexivity. Qed.
Lemma existsb_flat {A B} (f : B -> bool) (g : A -> list B) l : existsb f (flat_map g l) = existsb (fun a => existsb f (g a)) l.
Proof. induction l as [|x l IH]; [reflexivity|]. cbn [flat_map existsb]. rewrite existsb_app, IH. reflexivity. Qed.
Lemma shut_nonempty ls : Forall shut ls -> Forall (fun l => l <> []) ls.
Proof. intros H. eapply Forall_impl; [|exact H]. intros l (p & m & q & r & -> & _). discriminate. Qed.

(** The status the kernel gives for rings that are shut. *)
Definition stat_of (ftol : Q) (ls : list (list xy)) (q : xy) : bool := fst (fk_point ftol (flat_map used ls) q).
Lemma stat_parts ftol ls q : 0 <= ftol -> Forall shut ls ->
  stat_of ftol ls q = existsb (fun l => existsb (fk_hit ftol q) (sides l)) ls || par (fun l => par (fk_tog ftol q) (sides l)) ls.
Proof.
  intros Hf H. unfold stat_of. rewrite fk_point_spec. cbn [fst]. rewrite existsb_flat, par_flat. f_equal.
  - induction H as [|l ls Hl H IH]; [reflexivity|]. cbn [existsb]. rewrite IH. f_equal. apply used_same; auto. intros; now apply degenerate_hit.
  - induction H as [|l ls Hl H IH]; [reflexivity|]. rewrite !par_cons, IH. f_equal. apply used_same; auto. intros; now apply degenerate_tog.
Qed.
Lemma inside_par ftol q l : 0 <= ftol -> par (fk_tog ftol q) (sides l) = true <-> inside q l.
Proof.
  intros Hf. unfold inside. rewrite (om_par (crosses q) (fk_tog ftol q)) by (intros; now apply fk_tog_crosses). split; auto.
Qed.
Lemma odd_inside ftol q ls : 0 <= ftol -> par (fun l => par (fk_tog ftol q) (sides l)) ls = true <-> odd_many (inside q) true ls.
Proof.
  intros Hf. rewrite (om_par (inside q) (fun l => par (fk_tog ftol q) (sides l))) by (intros; now apply inside_par). split; auto.
Qed.
Lemma stat_near ftol ls q : 0 <= ftol -> Forall shut ls -> stat_of ftol ls q = true ->
  odd_many (inside q) true ls \/ exists l, In l ls /\ near_line ftol q l.
Proof.
  intros Hf H. rewrite stat_parts, orb_true_iff by auto. intros [E|E]; [right|left; now apply (odd_inside ftol)].
  apply existsb_exists in E. destruct E as (l & Hl & E). exists l. split; auto. apply existsb_exists in E. destruct E as (s & Hs & E).
  apply fk_hit_near in E. destruct E as (p & A & B). now exists s, p.
Qed.
Lemma stat_on ftol ls q : 0 <= ftol -> Forall shut ls -> odd_many (inside q) true ls \/ (exists l, In l ls /\ on_line q l) ->
  stat_of ftol ls q = true.
Proof.
  intros Hf H E. rewrite stat_parts, orb_true_iff by auto. destruct E as [E|(l & Hl & s & Hs & E)]; [right; now apply odd_inside|left].
  apply existsb_exists. exists l. split; auto. apply existsb_exists. exists s. split; auto. now apply fk_hit_on.
Qed.

(** * The signed distance function *)
Definition fin_stat (ftol : Q) (ls : list (list xy)) (p : pt) : bool :=
  match p with (Fin x, Fin y) => stat_of ftol ls (x, y) | _ => false end.
Lemma inpoly2_rows ftol ls vert : ls <> [] -> Forall (fun l => l <> []) ls ->
  exists b, inpoly2 inpoly_fast ftol (nan_to_num (rows_of ls)) (Some (ring_edges_of ls)) vert = Ok (map (fin_stat ftol ls) vert, b).
Proof.
  intros Hne H. destruct (ring_segments_rows ls H) as [Es Ev]. eexists. rewrite (inpoly2_edges _ _ _ _ _ _ fk_kernel); auto.
  - f_equal. f_equal. apply map_ext. intros p. rewrite <- edge_segments_lookup, Es. unfold fin_stat, stat_of. destruct p as [[x| |] [y| |]]; reflexivity.
  - rewrite nan_to_num_rows. destruct ls as [|l ls]; [congruence|]. rewrite nodes_cons. destruct l; discriminate.
Qed.
Lemma signed_func_eq ftol near inner boxes invert x : boxes <> [] -> Forall (fun l => l <> []) inner -> Forall (fun l => l <> []) boxes ->
  let ls := inner ++ boxes in
  signed_func inpoly_fast ftol (fun rows => map (near rows)) (rows_of ls) (rows_of boxes) (ring_edges_of ls) (ring_edges_of boxes) invert x =
  Ok (map (shore_value (fin_stat ftol boxes) (fin_stat ftol ls) (near (concat ls)) invert) x).
Proof.
  intros Hb Hi Hx ls. rewrite <- shore_func_eval. unfold signed_func, shore_func. destruct (existsb (fun b => b) (finite_mask x)); auto.
  destruct (inpoly2_rows ftol boxes (mask_select (finite_mask x) x) Hb Hx) as [b1 ->].
  assert (Hl : ls <> []) by (unfold ls; destruct inner; [exact Hb|discriminate]).
  destruct (inpoly2_rows ftol ls (mask_select (finite_mask x) x) Hl) as [b2 ->]; [apply Forall_app; auto|].
  cbn [bind fst]. rewrite points_of_rows. reflexivity.
Qed.
Lemma signed_covering_eq ftol near boxes x : boxes <> [] -> Forall (fun l => l <> []) boxes ->
  signed_covering inpoly_fast ftol (fun rows => map (near rows)) (rows_of boxes) (ring_edges_of boxes) x =
  Ok (map (fun p => if finite_pt p then sign_of (fin_stat ftol boxes p) * near (concat boxes) p else sign_of false * far) x).
Proof.
  intros Hb Hx. rewrite <- shore_covering_eval. unfold signed_covering, shore_covering. destruct (existsb (fun b => b) (finite_mask x)); auto.
  destruct (inpoly2_rows ftol boxes (mask_select (finite_mask x) x) Hb Hx) as [b1 ->]. cbn [bind fst]. rewrite points_of_rows. reflexivity.
Qed.
Lemma rows_of_app a b : rows_of (a ++ b) = rows_of a ++ rows_of b.
Proof. apply flat_map_app. Qed.
Lemma signed_made' ftol near inner boxes bb crs st invert : boxes <> [] -> Forall (fun l => l <> []) inner -> Forall (fun l => l <> []) boxes ->
  exists dom, signed_distance_function inpoly_fast ftol (fun rows => map (near rows)) (rows_of inner) (rows_of boxes) bb crs st invert = Ok dom /\
    d_bbox dom = bb /\ d_crs dom = crs /\ d_stereo dom = st /\
    evaluates dom (shore_value (fin_stat ftol boxes) (fin_stat ftol (inner ++ boxes)) (near (concat (inner ++ boxes))) invert) /\
    covers_by dom (fun p => if finite_pt p then sign_of (fin_stat ftol boxes p) * near (concat boxes) p else sign_of false * far).
Proof.
  intros Hb Hi Hx. unfold signed_distance_function. rewrite <- rows_of_app, !poly_edges_rows; auto.
  2:{ destruct inner; [exact Hb|discriminate]. }
  cbn [bind]. eexists. split; [reflexivity|]. cbn [d_bbox d_crs d_stereo]. repeat (split; [reflexivity|]). split.
  - intros xs. cbn [d_eval]. now apply signed_func_eq.
  - eexists. split; [reflexivity|]. intros xs. now apply signed_covering_eq.
Qed.

Lemma signed_made ftol near inner boxes bb crs st invert : boxes <> [] -> Forall shut inner -> Forall shut boxes ->
  exists dom, signed_distance_function inpoly_fast ftol (fun rows => map (near rows)) (rows_of inner) (rows_of boxes) bb crs st invert = Ok dom /\
    d_bbox dom = bb /\ d_crs dom = crs /\ d_stereo dom = st /\
    evaluates dom (shore_value (fin_stat ftol boxes) (fin_stat ftol (inner ++ boxes)) (near (concat (inner ++ boxes))) invert) /\
    covers_by dom (fun p => if finite_pt p then sign_of (fin_stat ftol boxes p) * near (concat boxes) p else sign_of false * far).
Proof. intros Hb Hi Hx. apply signed_made'; auto; now apply shut_nonempty. Qed.
Lemma signed_values ftol (near : list xy -> pt -> Q) inner boxes bb crs st : 0 <= ftol -> (forall rows p, 0 <= near rows p) ->
  boxes <> [] -> Forall shut inner -> Forall shut boxes ->
  exists dom h, signed_distance_function inpoly_fast ftol (fun rows => map (near rows)) (rows_of inner) (rows_of boxes) bb crs st false = Ok dom /\
    d_bbox dom = bb /\ d_crs dom = crs /\ d_stereo dom = st /\ evaluates dom h /\
    forall x y, let q := (x, y) in let d := near (concat (inner ++ boxes)) (Fin x, Fin y) in
      Qabs (h (Fin x, Fin y)) == d /\
      (h (Fin x, Fin y) < 0 -> 0 < d /\ inside_all (near_line ftol) inner boxes q) /\
      (0 < d -> inside_all on_line inner boxes q -> h (Fin x, Fin y) < 0).
Proof.
  intros Hf Hn Hb Hi Hx. destruct (signed_made ftol near inner boxes bb crs st false Hb Hi Hx) as (dom & E & B & C & S & H & _).
  exists dom. eexists. repeat (split; [eassumption|]). intros x y q d. unfold shore_value. cbn [finite_pt is_finite fst snd andb fin_stat]. fold q. fold d.
  assert (H0 : 0 <= d) by apply Hn. assert (Ha : Forall shut (inner ++ boxes)) by (apply Forall_app; auto). repeat split.
  - destruct (stat_of ftol (inner ++ boxes) q && stat_of ftol boxes q); cbn [sign_of]; [rewrite Qabs_neg by lra|rewrite Qabs_pos by lra]; lra.
  - destruct (stat_of ftol (inner ++ boxes) q && stat_of ftol boxes q); cbn [sign_of] in H1; lra.
  - destruct (stat_of ftol (inner ++ boxes) q) eqn:S1; [now apply stat_near|]. cbn [andb sign_of] in H1. exfalso. lra.
  - destruct (stat_of ftol boxes q) eqn:S1; [now apply stat_near|]. rewrite andb_false_r in H1. cbn [sign_of] in H1. exfalso. lra.
  - intros Hd [A1 A2]. rewrite (stat_on ftol (inner ++ boxes) q), (stat_on ftol boxes q) by auto. cbn [andb sign_of]. lra.
Qed.

(** * The sea: in the outline and on no island *)
Lemma par_apart q ls (f : list xy -> bool) : (forall l, f l = true <-> inside q l) -> apart q ls ->
  par f ls = true <-> exists l, In l ls /\ inside q l.
Proof.
  intros Hf. induction ls as [|l ls IH]; intros Ha; [split; [discriminate|intros (l & [] & _)]|].
  assert (Ha' : apart q ls). { intros i j a b H1 H2 H3 H4. specialize (Ha (S i) (S j) a b H1 H2 H3 H4). congruence. }
  specialize (IH Ha'). rewrite par_cons. destruct (f l) eqn:E.
  - assert (In1 : inside q l) by now apply Hf. split; [intros _; exists l; split; [now left|exact In1]|]. intros _.
    destruct (par f ls); auto. destruct (proj1 IH eq_refl) as (m & Hm & Im). apply In_nth_error in Hm. destruct Hm as [j Hj].
    specialize (Ha 0%nat (S j) l m eq_refl Hj In1 Im). discriminate.
  - rewrite xorb_false_l, IH. split; [intros (m & Hm & Im); exists m; split; [now right|exact Im]|].
    intros (m & [<-|Hm] & Im); [apply Hf in Im; congruence|exists m; auto].
Qed.
Lemma odd_app q a b v : odd_many (inside q) v (a ++ b) <-> exists u w, odd_many (inside q) u a /\ odd_many (inside q) w b /\ v = xorb u w.
Proof.
  pose (f := fun l => par (fk_tog 0 q) (sides l)). assert (Hf : forall l, f l = true <-> inside q l) by (intros; apply inside_par; lra).
  assert (G : forall l u, odd_many (inside q) u l <-> u = par f l) by (intros l u; apply om_par; intros; apply Hf).
  rewrite G, par_app. split.
  - intros ->. exists (par f a), (par f b). rewrite !G. auto.
  - intros (u & w & H1 & H2 & ->). apply G in H1, H2. congruence.
Qed.
Lemma odd_apart q ls : apart q ls -> odd_many (inside q) true ls <-> exists l, In l ls /\ inside q l.
Proof.
  intros Ha. pose (f := fun l => par (fk_tog 0 q) (sides l)). assert (Hf : forall l, f l = true <-> inside q l) by (intros; apply inside_par; lra).
  rewrite <- (par_apart q ls f Hf Ha), (om_par (inside q) f) by (intros; apply Hf). split; auto.
Qed.
Lemma odd_det q ls u v : odd_many (inside q) u ls -> odd_many (inside q) v ls -> u = v.
Proof.
  pose (f := fun l => par (fk_tog 0 q) (sides l)). assert (Hf : forall l, f l = true <-> inside q l) by (intros; apply inside_par; lra).
  rewrite !(om_par (inside q) f) by (intros; apply Hf). congruence.
Qed.
Lemma odd_total q ls : exists u, odd_many (inside q) u ls.
Proof.
  pose (f := fun l => par (fk_tog 0 q) (sides l)). assert (Hf : forall l, f l = true <-> inside q l) by (intros; apply inside_par; lra).
  exists (par f ls). apply (om_par (inside q) f); [intros; apply Hf|reflexivity].
Qed.
Lemma sea_rule q inner boxes : apart q inner ->
  (odd_many (inside q) true (inner ++ boxes) /\ odd_many (inside q) true boxes) <-> at_sea inner boxes q.
Proof.
  intros Ha. unfold at_sea. rewrite odd_app. split.
  - intros [(u & w & H1 & H2 & E) Hb]. split; auto. assert (w = true) as -> by (eapply odd_det; eauto).
    assert (u = false) as -> by (destruct u; auto; discriminate). intros l Hl Il.
    assert (T : odd_many (inside q) true inner) by (apply odd_apart; eauto). discriminate (odd_det _ _ _ _ H1 T).
  - intros [Hb Hn]. split; auto. destruct (odd_total q inner) as [u Hu]. exists u, true. repeat split; auto. destruct u; auto.
    apply odd_apart in Hu; auto. destruct Hu as (l & Hl & Il). destruct (Hn l Hl Il).
Qed.
Lemma sea_values ftol (near : list xy -> pt -> Q) inner boxes bb crs st : 0 <= ftol -> (forall rows p, 0 <= near rows p) ->
  boxes <> [] -> Forall shut inner -> Forall shut boxes ->
  exists dom h, signed_distance_function inpoly_fast ftol (fun rows => map (near rows)) (rows_of inner) (rows_of boxes) bb crs st false = Ok dom /\ evaluates dom h /\
    forall x y, let q := (x, y) in apart q inner -> (forall l, In l (inner ++ boxes) -> ~ near_line ftol q l) -> 0 < near (concat (inner ++ boxes)) (Fin x, Fin y) ->
      (h (Fin x, Fin y) < 0 <-> at_sea inner boxes q).
Proof.
  intros Hf Hn Hb Hi Hx. destruct (signed_values ftol near inner boxes bb crs st Hf Hn Hb Hi Hx) as (dom & h & E & _ & _ & _ & H & V).
  exists dom, h. split; auto. split; auto. intros x y q Ha Hl Hd. destruct (V x y) as (_ & V1 & V2). fold q in V1, V2.
  rewrite <- (sea_rule q inner boxes Ha). split.
  - intros Hh. destruct (V1 Hh) as (_ & [A|(l & Il & N)] & B); [|destruct (Hl l Il N)].
    destruct B as [B|(l & Il & N)]; [auto|]. destruct (Hl l); auto. apply in_or_app. now right.
  - intros [A B]. apply V2; auto. split; auto.
Qed.
Lemma signed_inverted ftol (near : list xy -> pt -> Q) inner boxes bb crs st : boxes <> [] -> Forall shut inner -> Forall shut boxes ->
  exists dom dom' h, signed_distance_function inpoly_fast ftol (fun rows => map (near rows)) (rows_of inner) (rows_of boxes) bb crs st false = Ok dom /\
    signed_distance_function inpoly_fast ftol (fun rows => map (near rows)) (rows_of inner) (rows_of boxes) bb crs st true = Ok dom' /\
    evaluates dom h /\ exists h', evaluates dom' h' /\ forall p, h' p == - h p.
Proof.
  intros Hb Hi Hx. destruct (signed_made ftol near inner boxes bb crs st false Hb Hi Hx) as (dom & E & _ & _ & _ & H & _).
  destruct (signed_made ftol near inner boxes bb crs st true Hb Hi Hx) as (dom' & E' & _ & _ & _ & H' & _).
  exists dom, dom'. eexists. repeat (split; [eassumption|]). eexists. split; [eassumption|]. intros p. unfold shore_value. lra.
Qed.
Lemma signed_covers ftol (near : list xy -> pt -> Q) inner boxes bb crs st invert : 0 <= ftol -> (forall rows p, 0 <= near rows p) ->
  boxes <> [] -> Forall shut inner -> Forall shut boxes ->
  exists dom c, signed_distance_function inpoly_fast ftol (fun rows => map (near rows)) (rows_of inner) (rows_of boxes) bb crs st invert = Ok dom /\ covers_by dom c /\
    forall x y, let q := (x, y) in let d := near (concat boxes) (Fin x, Fin y) in
      Qabs (c (Fin x, Fin y)) == d /\
      (c (Fin x, Fin y) < 0 -> 0 < d /\ (odd_many (inside q) true boxes \/ exists l, In l boxes /\ near_line ftol q l)) /\
      (0 < d -> odd_many (inside q) true boxes \/ (exists l, In l boxes /\ on_line q l) -> c (Fin x, Fin y) < 0).
Proof.
  intros Hf Hn Hb Hi Hx. destruct (signed_made ftol near inner boxes bb crs st invert Hb Hi Hx) as (dom & E & _ & _ & _ & _ & H).
  exists dom. eexists. repeat (split; [eassumption|]). intros x y q d. cbn [finite_pt is_finite fst snd andb fin_stat]. fold q. fold d.
  assert (H0 : 0 <= d) by apply Hn. repeat split.
  - destruct (stat_of ftol boxes q); cbn [sign_of]; [rewrite Qabs_neg by lra|rewrite Qabs_pos by lra]; lra.
  - destruct (stat_of ftol boxes q); cbn [sign_of] in *; lra.
  - destruct (stat_of ftol boxes q) eqn:S1; [now apply stat_near|]. cbn [sign_of] in *. exfalso. lra.
  - intros Hd A. rewrite (stat_on ftol boxes q) by auto. cbn [sign_of]. lra.
Qed.
Lemma signed_no_outline ftol query inner bb crs st invert : signed_distance_function inpoly_fast ftol query inner [] bb crs st invert = Raise ValueError.
Proof.
  unfold signed_distance_function. rewrite app_nil_r. cbn [nan_rows map].
  assert (G : forall l r, get_poly_edges l = Raise r -> r = ValueError) by (intros l r; unfold get_poly_edges; destruct (nan_positions 0 l); congruence).
  assert (G' : forall l, get_poly_edges l <> OutOfFuel) by (intros l; unfold get_poly_edges; destruct (nan_positions 0 l); congruence).
  destruct (get_poly_edges (nan_rows inner)) as [e|r|] eqn:E; [reflexivity|cbn; now rewrite (G _ _ E)|destruct (G' _ E)].
Qed.

(** * The ray caster *)
Lemma par_two {A} (f : A -> bool) x y : par f [x; y] = xorb (f x) (f y).
Proof. rewrite !par_cons. cbn [par fold_right]. now rewrite xorb_false_r. Qed.
Lemma last_indep (l : list xy) : forall a d d', last (a :: l) d = last (a :: l) d'.
Proof. induction l as [|b l IH]; intros a d d'; [reflexivity|]. exact (IH b d d'). Qed.
Lemma par_ends f l p : par f (ends (sides (p :: l))) = xorb (f p) (f (last (p :: l) p)).
Proof.
  revert p. induction l as [|q l IH]; intros p; [cbn; now destruct (f p)|].
  change (sides (p :: q :: l)) with ((p, q) :: sides (q :: l)). cbn [ends flat_map fst snd app]. rewrite !par_cons.
  change (flat_map (fun s : xy * xy => [fst s; snd s]) (sides (q :: l))) with (ends (sides (q :: l))). rewrite IH.
  change (last (p :: q :: l) p) with (last (q :: l) p). rewrite (last_indep l q p q).
  destruct (f p), (f q), (f (last (q :: l) q)); reflexivity.
Qed.
Lemma place_eqb_same c a b : same_place a b -> place_eqb c a = place_eqb c b.
Proof.
  intros [A B]. destruct (place_eqb c a) eqn:E1, (place_eqb c b) eqn:E2; auto; [apply place_eqb_iff in E1; destruct E1|apply place_eqb_iff in E2; destruct E2];
  [assert (T : place_eqb c b = true)|assert (T : place_eqb c a = true)]; try congruence; apply place_eqb_iff; split; lra.
Qed.
Lemma used_even c l : shut l -> par (place_eqb c) (ends (used l)) = false.
Proof.
  intros (p & m & q & r & -> & A & B). unfold used. change (p :: m ++ [q; r]) with ((p :: m) ++ [q; r]). rewrite removelast_two, last_two.
  change (hd (0, 0) ((p :: m) ++ [q; r])) with p. unfold ends. rewrite flat_map_app, par_app. cbn [app]. change (flat_map _ (sides ?l)) with (ends (sides l)). rewrite par_ends.
  cbn [flat_map app fst snd]. rewrite par_two. change (p :: m ++ [q]) with ((p :: m) ++ [q]). rewrite last_last.
  rewrite <- (place_eqb_same c p q A), <- (place_eqb_same c p r B). destruct (place_eqb c p); reflexivity.
Qed.
Lemma used_closed ls : Forall shut ls -> closed_curve (flat_map used ls).
Proof.
  intros H c. rewrite (om_par (same_place c) (place_eqb c)) by (intros; apply place_eqb_iff). symmetry.
  induction H as [|l ls Hl H IH]; [reflexivity|]. cbn [flat_map]. replace (ends (used l ++ flat_map used ls)) with (ends (used l) ++ ends (flat_map used ls)) by (symmetry; apply flat_map_app).
  rewrite par_app, IH. now rewrite used_even.
Qed.
Lemma nodes_three ls : ls <> [] -> Forall shut ls -> (3 <= length (nodes_of ls))%nat.
Proof.
  intros Hn H. destruct H as [|l ls (p & m & q & r & -> & _) H]; [congruence|]. rewrite nodes_cons, app_length. cbn [length]. rewrite app_length. cbn [length]. lia.
Qed.
Lemma kernels_rows ls vert : ls <> [] -> Forall shut ls ->
  inpoly2 inpoly_raycasting 0 (nan_to_num (rows_of ls)) (Some (ring_edges_of ls)) vert = inpoly2 inpoly_fast 0 (nan_to_num (rows_of ls)) (Some (ring_edges_of ls)) vert.
Proof.
  intros Hn H. destruct (ring_segments_rows ls (shut_nonempty _ H)) as [Es Ev]. apply agree_edges; auto.
  - rewrite nan_to_num_rows. now apply nodes_three.
  - rewrite Es. now apply used_closed.
Qed.
Lemma signed_kernels query inner boxes bb crs st invert : boxes <> [] -> Forall shut inner -> Forall shut boxes ->
  exists dom dom', signed_distance_function inpoly_fast 0 query (rows_of inner) (rows_of boxes) bb crs st invert = Ok dom /\
    signed_distance_function inpoly_raycasting 0 query (rows_of inner) (rows_of boxes) bb crs st invert = Ok dom' /\
    (forall xs, d_eval dom' xs = d_eval dom xs) /\
    exists c c', d_covering dom = Some c /\ d_covering dom' = Some c' /\ forall xs, c' xs = c xs.
Proof.
  intros Hb Hi Hx. assert (Hne : inner ++ boxes <> []) by (destruct inner; [exact Hb|discriminate]).
  assert (Ha : Forall shut (inner ++ boxes)) by (apply Forall_app; auto).
  unfold signed_distance_function. rewrite <- rows_of_app, !poly_edges_rows by auto. cbn [bind]. do 2 eexists. split; [reflexivity|]. split; [reflexivity|]. split.
  - intros xs. cbn [d_eval]. unfold signed_func. rewrite !kernels_rows by auto. reflexivity.
  - do 2 eexists. split; [reflexivity|]. split; [reflexivity|]. intros xs. unfold signed_covering. rewrite !kernels_rows by auto. reflexivity.
Qed.
