(** Meshes made with the signed distance function of a shoreline; an island whose ring starts on the diagonal. *)
From Coq Require Import List Arith Bool ZArith QArith Qabs Permutation Lia Lqa.
From Verif Require Import M_Base M_Edges M_Sdf M_Inpoly M_FixMesh M_Clean M_Generate M_Shore M_Clip M_Read M_Signed S_FixMesh S_Generate S_Edges S_Sdf S_Inpoly S_Cells S_Signed P_Edges P_Sdf P_Inpoly P_Generate P_Signed P_SignedRings.
Import ListNotations.
Open Scope Q_scope.

Lemma distance_pointwise dom h : evaluates dom h -> pointwise (distance_of dom) (fun p => h (Fin (fst p), Fin (snd p))).
Proof. intros H l d E. unfold distance_of in E. rewrite H, map_map in E. congruence. Qed.

Lemma mesh_at_sea ftol (near : list xy -> pt -> Q) inner boxes bb crs st : 0 <= ftol -> (forall rows p, 0 <= near rows p) ->
  boxes <> [] -> Forall shut inner -> Forall shut boxes ->
  exists dom, signed_distance_function inpoly_fast ftol (fun rows => map (near rows)) (rows_of inner) (rows_of boxes) bb crs st false = Ok dom /\
  let dist := fun c : xy => near (concat (inner ++ boxes)) (Fin (fst c), Fin (snd c)) in
  forall tr forces kleb geps deps dt pfix lock, total_order kleb -> 0 <= geps -> forall n p p' t',
  generate_mesh tr (distance_of dom) forces kleb geps deps dt pfix lock n p = Ok (p', t') ->
  exists q pd td p1, tr (n - 1)%nat q = Ok (pd, td) /\ length p1 = length pd /\
    (forall j, nth j p1 (0, 0) = nth j pd (0, 0) \/ In (nth j p1 (0, 0)) pfix) /\
    forall e, extent_at_most p1 e -> exists m : nat -> nat,
      (forall s, In s t' -> exists t, In t td /\ Permutation (map m (corners t)) (corners s) /\
         (forall i, In i (corners t) -> (m i < length p')%nat /\ S_FixMesh.near (e * ptol_default) (nth i p1 (0, 0)) (nth (m i) p' (0, 0))) /\
         geps < dist (centre p1 t) /\ inside_all (near_line ftol) inner boxes (centre p1 t)) /\
      (forall t, In t td -> geps < dist (centre p1 t) -> inside_all on_line inner boxes (centre p1 t) ->
         exists s, In s t' /\ Permutation (map m (corners t)) (corners s)).
Proof.
  intros Hf Hn Hb Hi Hx. destruct (signed_values ftol near inner boxes bb crs st Hf Hn Hb Hi Hx) as (dom & h & E & _ & _ & _ & H & V).
  exists dom. split; auto. intros dist tr forces kleb geps deps dt pfix lock Hk Hg n p p' t' R.
  destruct (gen_result tr (distance_of dom) forces kleb geps deps dt pfix lock _ Hk (distance_pointwise dom h H) n p p' t' R)
    as (_ & q & pd & td & p1 & A1 & A2 & _ & A3 & A4 & _).
  exists q, pd, td, p1. split; auto. split; auto. split; auto. intros e He. destruct (A4 e He) as (m & M1 & M2 & M3). exists m. split.
  - intros s Hs. destruct (M2 s Hs) as (t & Ht & Hd & P). exists t. split; auto. split; auto. split; [intros i Hi'; now apply M3 with (t := t)|].
    destruct (centre p1 t) as [x y] eqn:Ec. cbn [fst snd] in Hd. destruct (V x y) as (V0 & V1 & _). unfold dist. cbn [fst snd].
    assert (Hneg : h (Fin x, Fin y) < 0) by lra. split; [|now apply V1]. rewrite <- V0, Qabs_neg by lra. lra.
  - intros t Ht Hd Hin. apply M1; auto. destruct (centre p1 t) as [x y] eqn:Ec. unfold dist in Hd. cbn [fst snd] in *.
    destruct (V x y) as (V0 & _ & V2). assert (Hneg : h (Fin x, Fin y) < 0) by (apply V2; auto; lra). rewrite <- V0, Qabs_neg in Hd by lra. lra.
Qed.

(** * From the file *)
Lemma file_shut (crs : Type) (equals : crs -> crs -> bool) to_crs native gs dst box s rows
  G (make : list point -> res G) valid buffered contains overlaps intersection difference area exteriors stereo_area
  bbox boubox h0 n mult smooth stereo mask boxmask inner mainland out bb :
  transform_to equals to_crs native gs dst = Ok s ->
  (forall z e h, In (GPoly z e h) (explode s) -> ring_off_diagonal e) -> (forall z l, In (GLine z l) (explode s) -> ring_off_diagonal l) ->
  read equals to_crs native gs dst box = Ok rows ->
  (forall g b xy, In (Some xy) (intersection g b) -> closed_ring xy) -> (forall g xy, In xy (exteriors g) -> closed_ring xy) ->
  (forall b l, length (mask b l) = length l) ->
  build G make valid buffered contains overlaps intersection difference area exteriors stereo_area bbox boubox h0 n mult smooth stereo (Ok rows) mask boxmask = Ok (inner, mainland, out, bb) ->
  exists ip bp, inner = rows_of ip /\ out = rows_of bp /\ Forall shut ip /\ Forall shut bp.
Proof.
  intros T H1 H2 R I1 I2 Hm B.
  assert (S : shut_rows rows).
  { eapply read_shut; [exact T| |exact R]. intros g Hg _ e [(z & h & ->)|(z & ->)].
    - destruct (H1 _ _ _ Hg) as [C D]. split; auto. destruct C as (p & m & q & -> & C). cbn [hd]. eapply D; reflexivity.
    - destruct (H2 _ _ Hg) as [C D]. split; auto. destruct C as (p & m & q & -> & C). cbn [hd]. eapply D; reflexivity. }
  destruct (build_shut G make valid buffered contains overlaps intersection difference area exteriors stereo_area I1 I2 _ _ _ _ _ _ _ _ _ _ _ _ _ _ S Hm B) as [(ip & -> & A) (bp & -> & C)].
  exists ip, bp. auto.
Qed.

(** * An island whose ring starts on the diagonal *)
Definition island : list xy := [(4, 4); (2, 4); (2, 1); (4, 1); (4, 4)].
Definition sea_box : Q * Q * Q * Q := (0, 6, 0, 6).
Definition island_parts : list (list xy) := [[(2, 4); (2, 1); (4, 1); (4, 4)]].
Definition island_rows : list row := [Some (2, 4); Some (2, 1); Some (4, 1); Some (4, 4); None].
Definition sea_cells : list (list xy) := map (fun c => cell_ring c ++ firstn 1 (cell_ring c)) (flat_map (fun i => map (fun j => (i, j)) (zrange 0 6)) (zrange 0 6)).
Definition sea_rows : list row := rows_of sea_cells.
Lemma island_read : read (fun _ _ : unit => true) (fun _ _ g => Ok g) (Some tt) [GPoly false island []] tt sea_box = Ok island_rows.
Proof. vm_compute. reflexivity. Qed.
Lemma island_built : cells_build sea_box 1 1 island_rows = Ok (island_rows, [], sea_rows, sea_box).
Proof. vm_compute. reflexivity. Qed.
Lemma inside_dec q l : (par (fk_tog 0 q) (sides l) = true -> inside q l) /\ (par (fk_tog 0 q) (sides l) = false -> ~ inside q l).
Proof. split; intros H; [apply (inside_par 0); auto; lra|]. intros I. apply (inside_par 0) in I; [congruence|lra]. Qed.
Lemma island_wrong : exists gs rows inner mainland out ring land sea,
  gs = [GPoly false ring []] /\ closed_ring ring /\ (forall p, In p ring -> 0 < fst p < 6 /\ 0 < snd p < 6) /\
  read (fun _ _ : unit => true) (fun _ _ g => Ok g) (Some tt) gs tt sea_box = Ok rows /\
  cells_build sea_box 1 1 rows = Ok (inner, mainland, out, sea_box) /\
  inside land ring /\ ~ inside sea ring /\ 0 < fst sea < 6 /\ 0 < snd sea < 6 /\
  forall near : list xy -> pt -> Q, exists dom rows' v w,
    signed_distance_function inpoly_fast 0 (fun r => map (near r)) inner out sea_box None false false = Ok dom /\
    d_eval dom [(Fin (fst land), Fin (snd land)); (Fin (fst sea), Fin (snd sea))] = Ok [v; w] /\
    v == - near rows' (Fin (fst land), Fin (snd land)) /\ w == near rows' (Fin (fst sea), Fin (snd sea)).
Proof.
  exists [GPoly false island []], island_rows, island_rows, [], sea_rows, island, (7 # 2, 5 # 2), (3 # 2, 5 # 2). split; [reflexivity|].
  split; [exists (4, 4), [(2, 4); (2, 1); (4, 1)], (4, 4); split; [reflexivity|split; reflexivity]|].
  split; [intros p [<-|[<-|[<-|[<-|[<-|[]]]]]]; cbn; lra|]. split; [exact island_read|]. split; [exact island_built|].
  split; [apply inside_dec; vm_compute; reflexivity|]. split; [apply inside_dec; vm_compute; reflexivity|].
  split; [cbn; lra|]. split; [cbn; lra|]. intros near.
  destruct (signed_made' 0 near island_parts sea_cells sea_box None false false) as (dom & E & _ & _ & _ & H & _).
  { discriminate. } { repeat constructor; discriminate. } { apply Forall_forall. intros l Hl. apply in_map_iff in Hl. destruct Hl as (c & <- & _). discriminate. }
  exists dom, (concat (island_parts ++ sea_cells)). do 2 eexists. split; [exact E|]. split; [rewrite H; cbn [map fst snd]; reflexivity|].
  unfold shore_value. cbn [finite_pt is_finite fst snd andb fin_stat].
  assert (S1 : stat_of 0 sea_cells (7 # 2, 5 # 2) = true) by (vm_compute; reflexivity).
  assert (S2 : stat_of 0 sea_cells (3 # 2, 5 # 2) = true) by (vm_compute; reflexivity).
  assert (S3 : stat_of 0 (island_parts ++ sea_cells) (7 # 2, 5 # 2) = true) by (vm_compute; reflexivity).
  assert (S4 : stat_of 0 (island_parts ++ sea_cells) (3 # 2, 5 # 2) = false) by (vm_compute; reflexivity).
  rewrite S1, S2, S3, S4. cbn [andb sign_of]. split; lra.
Qed.
(** A mesh with an element on that island. *)
Definition one_tri (_ : nat) (p : list point) : res (list point * list tri) := Ok (p, [(0, 1, 2)]%nat).
Lemma island_meshed : exists dom p' t' s,
  signed_distance_function inpoly_fast 0 (fun _ => map (fun _ => 1)) island_rows sea_rows sea_box None false false = Ok dom /\
  generate_mesh one_tri (distance_of dom) no_force zedge_leb (1 # 1000) (1 # 16) 1 [] false 2 [(5 # 2, 3 # 2); (7 # 2, 3 # 2); (7 # 2, 7 # 2)] = Ok (p', t') /\
  In s t' /\ inside (centre p' s) island /\ forall i, In i (corners s) -> inside (nth i p' (0, 0)) island.
Proof.
  set (sd := signed_distance_function inpoly_fast 0 (fun _ => map (fun _ => 1)) island_rows sea_rows sea_box None false false).
  assert (H : match sd with Ok dom => generate_mesh one_tri (distance_of dom) no_force zedge_leb (1 # 1000) (1 # 16) 1 [] false 2 [(5 # 2, 3 # 2); (7 # 2, 3 # 2); (7 # 2, 7 # 2)] | _ => Raise ValueError end =
    Ok ([(5 # 2, 3 # 2); (7 # 2, 3 # 2); (7 # 2, 7 # 2)], [(0, 1, 2)]%nat)) by (vm_compute; reflexivity).
  destruct sd as [dom| |]; [|discriminate|discriminate]. exists dom. do 2 eexists. exists (0, 1, 2)%nat. split; [reflexivity|]. split; [exact H|]. split; [now left|].
  split; [apply inside_dec; vm_compute; reflexivity|]. intros i [<-|[<-|[<-|[]]]]; apply inside_dec; vm_compute; reflexivity.
Qed.

(** * The island moved off the diagonal *)
Definition off_island : list xy := [(4, 3); (2, 3); (2, 1); (4, 1); (4, 3)].
Definition off_part : list xy := [(4, 3); (2, 3); (2, 1); (4, 1); (4, 3); (4, 3)].
Lemma sea_cells_shut : Forall shut sea_cells.
Proof.
  apply Forall_forall. intros l Hl. apply in_map_iff in Hl. destruct Hl as ([i j] & <- & _). unfold cell_ring. cbn [fst snd firstn app].
  do 4 eexists. split; [match goal with |- [?a; ?b; ?c; ?d; ?e; ?f] = _ => instantiate (4 := a); instantiate (3 := [b; c; d]) end; reflexivity|]. split; split; reflexivity.
Qed.
Lemma off_island_case : ring_off_diagonal off_island /\
  read (fun _ _ : unit => true) (fun _ _ g => Ok g) (Some tt) [GPoly false off_island []] tt sea_box = Ok (rows_of [off_part]) /\ shut off_part /\
  cells_build sea_box 1 1 (rows_of [off_part]) = Ok (rows_of [off_part], [], sea_rows, sea_box) /\ Forall shut sea_cells /\
  match signed_distance_function inpoly_fast 0 (fun _ => map (fun _ => 1)) (rows_of [off_part]) sea_rows sea_box None false false with
  | Ok dom => d_eval dom [(Fin (7 # 2), Fin (5 # 2)); (Fin (3 # 2), Fin (5 # 2)); (Fin (13 # 2), Fin (5 # 2))] | _ => Raise ValueError end = Ok [1 * 1; - (1) * 1; 1 * 1].
Proof.
  split. { split; [exists (4, 3), [(2, 3); (2, 1); (4, 1)], (4, 3); split; [reflexivity|split; reflexivity]|]. intros p m H. injection H as <- _. cbn. lra. }
  split; [vm_compute; reflexivity|]. split; [exists (4, 3), [(2, 3); (2, 1); (4, 1)], (4, 3), (4, 3); repeat split; reflexivity|].
  split; [vm_compute; reflexivity|]. split; [exact sea_cells_shut|]. vm_compute. reflexivity.
Qed.
Definition two_tri (_ : nat) (p : list point) : res (list point * list tri) := Ok (p, [(0, 1, 2); (3, 4, 5)]%nat).
Lemma off_island_mesh : match signed_distance_function inpoly_fast 0 (fun _ => map (fun _ => 1)) (rows_of [off_part]) sea_rows sea_box None false false with
  | Ok dom => generate_mesh two_tri (distance_of dom) no_force zedge_leb (1 # 1000) (1 # 16) 1 [] false 1
      [(1 # 2, 3 # 2); (3 # 2, 3 # 2); (1 # 2, 5 # 2); (5 # 2, 3 # 2); (7 # 2, 3 # 2); (7 # 2, 5 # 2)]
  | _ => Raise ValueError end = Ok ([(1 # 2, 3 # 2); (1 # 2, 5 # 2); (3 # 2, 3 # 2)], [(1, 0, 2)]%nat).
Proof. vm_compute. reflexivity. Qed.
