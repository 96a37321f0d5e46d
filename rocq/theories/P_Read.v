(** Proofs about reading shoreline files. *)
From Coq Require Import List Arith Bool ZArith QArith Lia Lqa.
From Verif Require Import M_Base M_Shore S_Shore P_Shore M_Clip S_Clip P_Clip M_Read S_Read.
Import ListNotations.
Open Scope Q_scope.

(** * Extents *)
Lemma overlaps_extent b g : proper b -> (overlaps_box b g = true <-> extent_meets b (vertices g)).
Proof.
  destruct b as [[[x0 x1] y0] y1]. intros [PX PY]. unfold overlaps_box.
  destruct (vertices g) as [|v vs] eqn:V.
  - unfold bounds. rewrite V. split; [discriminate|]. intros ([[[a b] c] d] & p & (_ & (q & [] & _) & _) & _).
  - rewrite <- V in *. assert (N : vertices g <> []) by (rewrite V; discriminate).
    assert (BA := box_around_spec (vertices g) N).
    assert (BE : bounds g = Some (minQ (map fst (vertices g)), maxQ (map fst (vertices g)), minQ (map snd (vertices g)), maxQ (map snd (vertices g)))).
    { unfold bounds. destruct (vertices g); [congruence|reflexivity]. }
    rewrite BE.
    set (e := (minQ (map fst (vertices g)), maxQ (map fst (vertices g)), minQ (map snd (vertices g)), maxQ (map snd (vertices g)))) in *.
    assert (L : exists u0 u1 v0 v1, e = (u0, u1, v0, v1) /\ u0 <= u1 /\ v0 <= v1).
    { do 4 eexists. split; [reflexivity|]. destruct BA as [A _]. assert (I : In v (vertices g)) by (rewrite V; left; reflexivity).
      destruct (A v I) as [A1 A2]. lra. }
    clearbody e. destruct L as (u0 & u1 & v0 & v1 & -> & U & W).
    rewrite (overlapping_iff x0 x1 y0 y1 u0 u1 v0 v1 PX PY U W). split.
    + intros (p & A & B1 & B2). exists (u0, u1, v0, v1), p. split; [exact BA|]. split; [exact A|split; assumption].
    + intros ([[[a b] c] d] & p & BB & S & I). exists p. split; [exact S|].
      destruct BA as (IN & _). destruct BB as (_ & (p1 & I1 & E1) & (p2 & I2 & E2) & (p3 & I3 & E3) & (p4 & I4 & E4)).
      pose proof (IN _ I1). pose proof (IN _ I2). pose proof (IN _ I3). pose proof (IN _ I4). unfold in_box in *. subst a b c d. lra.
Qed.
Lemma extent_same b ps qs : (forall p, In p ps <-> In p qs) -> extent_meets b ps -> extent_meets b qs.
Proof.
  intros H (e & p & A & B). exists e, p. split; [|exact B]. destruct e as [[[a b'] c] d]. unfold box_around in *. setoid_rewrite <- H. exact A.
Qed.
Lemma extent_larger b c ps : box_in b c -> extent_meets b ps -> extent_meets c ps.
Proof.
  intros S (e & p & A & B & C). exists e, p. split; [exact A|]. split; [|exact C].
  destruct b as [[[x0 x1] y0] y1], c as [[[u0 u1] v0] v1]. destruct p as [px py]. unfold box_in, in_box, strictly_in_box in *. cbn [fst snd] in *.
  destruct (S (x0, y0)) as [S1 S2]; [cbn; lra|]. destruct (S (x1, y1)) as [S3 S4]; [cbn; lra|]. cbn [fst snd] in *. lra.
Qed.
Lemma vertex_inside b ps p : In p ps -> strictly_in_box b p -> extent_meets b ps.
Proof.
  intros I S. assert (N : ps <> []) by (intros ->; destruct I). eexists. exists p. split; [apply box_around_spec, N|]. split; [exact S|].
  destruct (box_around_spec ps N) as [A _]. apply A, I.
Qed.
Lemma all_beside b ps : let '(x0, x1, y0, y1) := b in
  ((forall p, In p ps -> fst p <= x0) \/ (forall p, In p ps -> x1 <= fst p) \/ (forall p, In p ps -> snd p <= y0) \/ (forall p, In p ps -> y1 <= snd p)) ->
  ~ extent_meets b ps.
Proof.
  destruct b as [[[x0 x1] y0] y1]. intros H ([[[a b] c] d] & p & (_ & (p1 & I1 & E1) & (p2 & I2 & E2) & (p3 & I3 & E3) & (p4 & I4 & E4)) & [S1 S2] & [B1 B2]).
  subst a b c d. destruct H as [H|[H|[H|H]]]; [specialize (H _ I2)|specialize (H _ I1)|specialize (H _ I4)|specialize (H _ I3)]; lra.
Qed.

(** * Vertices *)
Lemma geom_nested (P : geom -> Prop) : (forall p, P (GPoint p)) -> (forall z l, P (GLine z l)) -> (forall z e h, P (GPoly z e h)) ->
  (forall l, Forall P l -> P (GColl l)) -> forall g, P g.
Proof.
  intros A B C D. fix IH 1. intros [p|z l|z e h|l]; [apply A|apply B|apply C|]. apply D. induction l as [|g l IHl]; constructor; [apply IH|exact IHl].
Qed.
Lemma vertices_has g p : In p (vertices g) <-> has_vertex g p.
Proof.
  revert g. apply geom_nested.
  - intros q. split; [intros [<-|[]]; constructor|intros H; inversion H; left; reflexivity].
  - intros z l. split; [intros H; constructor; exact H|intros H; inversion H; assumption].
  - intros z e h. split; [intros H; constructor; exact H|intros H; inversion H; assumption].
  - intros l F. rewrite Forall_forall in F. cbn [vertices]. rewrite in_flat_map. split.
    + intros (g & I & H). apply (hv_coll l g); [exact I|apply F; assumption].
    + intros H. inversion H as [| | |l' g p' I H']. subst. exists g. split; [exact I|apply F; assumption].
Qed.
Lemma overlaps_meets b g : proper b -> (overlaps_box b g = true <-> meets b g).
Proof.
  intros P. rewrite (overlaps_extent b g P). split.
  - intros H. exists (vertices g). split; [intros p; apply vertices_has|exact H].
  - intros (ps & A & B). apply (extent_same b ps); [|exact B]. intros p. rewrite A. symmetry. apply vertices_has.
Qed.
Lemma explode_parts gs : parts gs (explode gs).
Proof.
  induction gs as [|g gs IH]; [constructor|]. unfold explode in *. cbn [flat_map]. destruct g as [p|z l|z e h|l];
    [apply pa_one; [discriminate|exact IH]|apply pa_one; [discriminate|exact IH]|apply pa_one; [discriminate|exact IH]|apply pa_multi, IH].
Qed.
Lemma parts_unique gs ps : parts gs ps -> ps = explode gs.
Proof.
  induction 1 as [|g gs out N _ IH|l gs out _ IH]; [reflexivity| |].
  - unfold explode in *. cbn [flat_map]. rewrite IH. destruct g; try reflexivity. destruct (N l eq_refl).
  - unfold explode in *. cbn [flat_map]. rewrite IH. reflexivity.
Qed.

(** * Parts read *)
Definition seen (ps : list point) : list point := filter (fun p => negb (Qeq_bool (fst p) (snd p))) ps.
Definition part_of (ps : list point) : list row := term (seen ps ++ [last ps (0, 0)]).
Lemma remove_dup_ok ps : ps <> [] -> remove_dup ps = Ok (seen ps ++ [last ps (0, 0)]).
Proof.
  intros N. destruct (remove_dup ps) as [r| |] eqn:E; [|destruct ps; [congruence|discriminate]|destruct ps; [congruence|discriminate]].
  destruct (remove_dup_spec ps r E) as (l & A & ->). f_equal. unfold seen. f_equal. f_equal.
  clear E. destruct (destruct_last ps) as [->|(x & m & ->)]; [congruence|]. rewrite last_last. rewrite app_length in A. cbn [length] in A.
  replace (length m + 1 - 1)%nat with (length m) in A by lia. rewrite nth_error_app2, Nat.sub_diag in A by lia. cbn in A. congruence.
Qed.
Lemma part_of_part ps : part (part_of ps).
Proof.
  unfold part_of, term, part. destruct (seen ps ++ [last ps (0, 0)]) as [|q qs] eqn:E; [destruct (seen ps); discriminate|]. exists q, qs. reflexivity.
Qed.
Lemma but_two_part_of ps : but_two (part_of ps) = seen ps.
Proof. unfold part_of. rewrite but_two_term. apply removelast_last. Qed.
Lemma supported_part g : supported g -> vertices g <> [] -> read_part g = Ok (part_of (vertices g)).
Proof.
  destruct g as [p|[] l|z e h|l]; cbn [supported vertices read_part]; try tauto; intros _ N; rewrite (remove_dup_ok _ N); reflexivity.
Qed.
Lemma unsupported_part g : ~ supported g -> vertices g <> [] -> read_part g = Raise ValueError.
Proof.
  destruct g as [p|[] l|z e h|l]; cbn [supported vertices read_part]; try tauto; intros _ N; try reflexivity. rewrite (remove_dup_ok _ N). reflexivity.
Qed.
Lemma overlaps_nonempty b g : overlaps_box b g = true -> vertices g <> [].
Proof. unfold overlaps_box, bounds. destruct (vertices g); discriminate. Qed.
Lemma supported_dec g : supported g \/ ~ supported g.
Proof. destruct g as [p|[] l|z e h|l]; cbn; tauto. Qed.
Lemma mapM_parts gs : (forall g, In g gs -> vertices g <> []) ->
  (Forall supported gs -> mapM read_part gs = Ok (map (fun g => part_of (vertices g)) gs)) /\ (~ Forall supported gs -> mapM read_part gs = Raise ValueError).
Proof.
  induction gs as [|g gs IH]; intros V; [split; [reflexivity|intros H; destruct H; constructor]|].
  destruct IH as [IH1 IH2]; [intros h I; apply V; right; exact I|]. pose proof (V g (or_introl eq_refl)) as Vg. split.
  - intros F. inversion F as [|x l A B]. subst. cbn [mapM map]. rewrite (supported_part g A Vg). cbn [bind]. rewrite (IH1 B). reflexivity.
  - intros F. cbn [mapM]. destruct (supported_dec g) as [A|A].
    + rewrite (supported_part g A Vg). cbn [bind]. rewrite IH2; [reflexivity|]. intros B. apply F. constructor; assumption.
    + rewrite (unsupported_part g A Vg). reflexivity.
Qed.
Section Read.
  Context {crs : Type} (equals : crs -> crs -> bool) (to_crs : crs -> crs -> list geom -> res (list geom)).
  Definition chosen (b : Q * Q * Q * Q) (gs : list geom) : list geom := filter (overlaps_box b) (explode gs).
  Lemma chosen_vertices b gs g : In g (chosen b gs) -> vertices g <> [].
  Proof. intros I. apply filter_In in I. apply (overlaps_nonempty b), I. Qed.
  Lemma read_ok native gs dst b s : transform_to equals to_crs native gs dst = Ok s -> chosen b s <> [] -> Forall supported (chosen b s) ->
    exists rows, read equals to_crs native gs dst b = Ok rows /\ convert_to_list rows = map (fun g => part_of (vertices g)) (chosen b s).
  Proof.
    intros T N F. unfold read. rewrite T. cbn [bind]. fold (chosen b s). destruct (mapM_parts (chosen b s)) as [M _]; [apply chosen_vertices|]. rewrite (M F). cbn [bind].
    set (ps := map (fun g => part_of (vertices g)) (chosen b s)) in *. assert (NP : ps <> []) by (unfold ps; destruct (chosen b s); [congruence|discriminate]).
    assert (FP : Forall part ps). { unfold ps. apply Forall_forall. intros x I. apply in_map_iff in I. destruct I as (g & <- & _). apply part_of_part. }
    exists (concat ps). split; [destruct ps; [congruence|reflexivity]|apply to_list_parts, FP].
  Qed.
  Lemma read_bad native gs dst b s : transform_to equals to_crs native gs dst = Ok s -> (chosen b s = [] \/ ~ Forall supported (chosen b s)) ->
    read equals to_crs native gs dst b = Raise ValueError.
  Proof.
    intros T H. unfold read. rewrite T. cbn [bind]. fold (chosen b s). destruct (mapM_parts (chosen b s)) as [_ M]; [apply chosen_vertices|].
    destruct H as [->|H]; [reflexivity|]. rewrite (M H). reflexivity.
  Qed.
  Lemma picked_filter {A} (P : A -> Prop) f l : (forall x, f x = true <-> P x) -> picked P l (filter f l).
  Proof.
    intros H. induction l as [|x l IH]; [constructor|]. cbn [filter]. destruct (f x) eqn:E; constructor; try exact IH; [apply H, E|].
    intros B. apply H in B. congruence.
  Qed.
  Lemma picked_unique {A} (P : A -> Prop) l a : picked P l a -> forall c, picked P l c -> a = c.
  Proof.
    induction 1 as [|x l l' A1 _ IH|x l l' A1 _ IH]; intros c H; inversion H; subst; try tauto; [f_equal|]; auto.
  Qed.
  Lemma outlines_explode gs pss : outlines gs pss -> Forall2 line_or_polygon (explode gs) pss.
  Proof.
    induction 1 as [|g gs ps out A _ IH|l gs ps out A _ IH]; [constructor| |].
    - unfold explode in *. cbn [flat_map]. destruct g as [p|z l|z e h|l]; try (destruct A; fail); cbn [app]; constructor; assumption.
    - unfold explode in *. cbn [flat_map]. apply Forall2_app; assumption.
  Qed.
  Lemma line_vertices g ps : line_or_polygon g ps -> vertices g = ps.
  Proof. destruct g; cbn; intros H; try tauto; congruence. Qed.
  Lemma chosen_outlines b gs pss : proper b -> outlines gs pss -> picked (extent_meets b) pss (map vertices (chosen b gs)).
  Proof.
    intros P O. apply outlines_explode in O. unfold chosen. induction O as [|g ps gs' pss' A _ IH]; [constructor|].
    cbn [filter]. apply line_vertices in A. destruct (overlaps_box b g) eqn:E.
    - cbn [map]. rewrite A. constructor; [|exact IH]. rewrite <- A. apply overlaps_extent; assumption.
    - constructor; [|exact IH]. intros M. rewrite <- A in M. apply (overlaps_extent b g P) in M. congruence.
  Qed.
  Lemma outlines_supported b gs pss : outlines gs pss -> Forall no_third gs -> Forall supported (chosen b gs).
  Proof.
    intros O N. assert (F : Forall supported (explode gs)).
    { induction O as [|g gs ps out A _ IH|l gs ps out A _ IH]; [constructor| |]; inversion N as [|x y N1 N2]; subst.
      - unfold explode in *. cbn [flat_map]. destruct g as [p|z l|z e h|l]; try (destruct A; fail); cbn [app]; (constructor; [|apply IH, N2]).
        + cbn in N1. subst z. exact I.
        + exact I.
      - unfold explode in *. cbn [flat_map]. apply Forall_app. split; [|apply IH, N2]. cbn in N1. clear -A N1.
        induction A as [|h ps l pss B _ IH]; [constructor|]. inversion N1 as [|x y N2 N3]; subst. constructor; [|apply IH, N3].
        destruct h as [p|z e|z e h|e]; try (destruct B; fail); [|exact I]. subst z. exact I. }
    rewrite Forall_forall in *. intros g I. apply F. apply filter_In in I. apply I.
  Qed.
  Lemma selection c dst gs pss b : equals c dst = true -> proper b -> outlines gs pss -> Forall no_third gs ->
    exists sel, picked (extent_meets b) pss sel /\ (sel = [] -> read equals to_crs (Some c) gs dst b = Raise ValueError) /\
      (sel <> [] -> exists rows, read equals to_crs (Some c) gs dst b = Ok rows /\ Forall2 (fun part ps => but_two part = filter (fun p => negb (Qeq_bool (fst p) (snd p))) ps /\
        exists q, part = term (but_two part ++ [q]) /\ q = last ps q) (convert_to_list rows) sel).
  Proof.
    intros E P O N. exists (map vertices (chosen b gs)). split; [apply chosen_outlines; assumption|].
    assert (T : transform_to equals to_crs (Some c) gs dst = Ok gs) by (cbn; rewrite E; reflexivity). split.
    - intros M. apply (read_bad _ _ _ _ gs T). left. destruct (chosen b gs); [reflexivity|discriminate].
    - intros M. destruct (read_ok (Some c) gs dst b gs T) as (rows & R & L); [intros X; rewrite X in M; apply M; reflexivity|apply (outlines_supported b gs pss); assumption|].
      exists rows. split; [exact R|]. rewrite L. assert (V : forall g, In g (chosen b gs) -> vertices g <> []) by (apply chosen_vertices).
      clear -V. induction (chosen b gs) as [|g l IH]; [constructor|]. cbn [map]. constructor; [|apply IH; intros h I; apply V; right; exact I].
      rewrite but_two_part_of. split; [reflexivity|]. exists (last (vertices g) (0, 0)). split; [reflexivity|].
      specialize (V g (or_introl eq_refl)). destruct (destruct_last (vertices g)) as [X|(x & m & X)]; [congruence|]. rewrite X, !last_last. reflexivity.
  Qed.
  Lemma unchanged c dst gs pss b sel : equals c dst = true -> proper b -> outlines gs pss -> Forall no_third gs ->
    picked (extent_meets b) pss sel -> sel <> [] -> (forall ps p, In ps sel -> In p ps -> ~ fst p == snd p) ->
    exists rows, read equals to_crs (Some c) gs dst b = Ok rows /\ map but_two (convert_to_list rows) = sel.
  Proof.
    intros E P O N K NE D. destruct (selection c dst gs pss b E P O N) as (sel' & K' & _ & H). rewrite (picked_unique _ _ _ K' _ K) in H.
    destruct (H NE) as (rows & R & F). exists rows. split; [exact R|]. clear -F D. induction F as [|part ps l sel [A _] _ IH]; [reflexivity|].
    cbn [map]. f_equal; [|apply IH; intros qs p I; apply D; right; exact I]. rewrite A. specialize (D ps).
    assert (D' : forall p, In p ps -> ~ fst p == snd p) by (intros p; apply D; left; reflexivity). clear -D'.
    induction ps as [|p ps IH]; [reflexivity|]. cbn [filter]. destruct (Qeq_bool (fst p) (snd p)) eqn:E.
    - apply Qeq_bool_iff in E. destruct (D' p (or_introl eq_refl) E).
    - cbn [negb]. f_equal. apply IH. intros q I. apply D'. right; exact I.
  Qed.
  Lemma read_total native gs dst b s ps : proper b -> transform_to equals to_crs native gs dst = Ok s -> parts s ps ->
    ((exists rows, read equals to_crs native gs dst b = Ok rows) <-> (exists g, In g ps /\ meets b g) /\ forall g, In g ps -> meets b g -> supported g) /\
    ((forall rows, read equals to_crs native gs dst b <> Ok rows) -> read equals to_crs native gs dst b = Raise ValueError).
  Proof.
    intros P T PA. apply parts_unique in PA. subst ps.
    assert (IC : forall g, In g (chosen b s) <-> In g (explode s) /\ meets b g).
    { intros g. unfold chosen. rewrite filter_In, (overlaps_meets b g P). tauto. }
    assert (D : chosen b s = [] \/ chosen b s <> []) by (destruct (chosen b s); [left; reflexivity|right; discriminate]).
    assert (DS : Forall supported (chosen b s) \/ ~ Forall supported (chosen b s)).
    { clear. induction (chosen b s) as [|g l [IH|IH]]; [left; constructor| |right; intros H; inversion H; tauto].
      destruct (supported_dec g); [left; constructor; assumption|right; intros H'; inversion H'; tauto]. }
    assert (G : chosen b s <> [] /\ Forall supported (chosen b s) <-> (exists g, In g (explode s) /\ meets b g) /\ forall g, In g (explode s) -> meets b g -> supported g).
    { rewrite Forall_forall. split.
      - intros [A B]. split; [|intros g I M; apply B, IC; auto]. destruct (chosen b s) as [|g l] eqn:X; [congruence|]. exists g. apply IC. left; reflexivity.
      - intros [(g & A) B]. split; [intros X; apply IC in A; rewrite X in A; destruct A|]. intros h I. apply IC in I. apply B; apply I. }
    rewrite <- G. destruct D as [D|D]; [|destruct DS as [DS|DS]].
    - rewrite (read_bad native gs dst b s T (or_introl D)). split; [|reflexivity]. split; [intros (r & X); discriminate|tauto].
    - destruct (read_ok native gs dst b s T D DS) as (r & R & _). rewrite R. split; [split; [tauto|intros _; exists r; reflexivity]|]. intros H. destruct (H r eq_refl).
    - rewrite (read_bad native gs dst b s T (or_intror DS)). split; [|reflexivity]. split; [intros (r & X); discriminate|tauto].
  Qed.
  Lemma same_outside_vertices g h : same_outside g h -> vertices g = vertices h.
  Proof.
    revert h. revert g. apply (geom_nested (fun g => forall h, same_outside g h -> vertices g = vertices h)); try (intros; inversion H; reflexivity).
    intros l F h H. inversion H as [| | |l1 l' F2]. subst. cbn [vertices]. clear H. induction F2 as [|x y l l' S _ IH]; [reflexivity|].
    inversion F as [|a b F1 F3]. subst. cbn [flat_map]. rewrite (F1 _ S), (IH F3). reflexivity.
  Qed.
  Lemma same_outside_part g h : same_outside g h -> read_part g = read_part h.
  Proof. intros H. inversion H; reflexivity. Qed.
  Lemma same_outside_overlaps b g h : same_outside g h -> overlaps_box b g = overlaps_box b h.
  Proof. intros H. unfold overlaps_box, bounds. rewrite (same_outside_vertices g h H). reflexivity. Qed.
  Lemma same_outside_explode gs hs : Forall2 same_outside gs hs -> Forall2 same_outside (explode gs) (explode hs).
  Proof.
    induction 1 as [|g h gs hs A _ IH]; [constructor|]. unfold explode in *. cbn [flat_map]. apply Forall2_app; [|exact IH].
    inversion A; subst; try (constructor; [assumption|constructor]). assumption.
  Qed.
  Lemma holes_ignored c dst gs hs b : equals c dst = true -> Forall2 same_outside gs hs -> read equals to_crs (Some c) gs dst b = read equals to_crs (Some c) hs dst b.
  Proof.
    intros E F. unfold read, transform_to. rewrite E. cbn [bind]. apply same_outside_explode in F.
    assert (M : mapM read_part (filter (overlaps_box b) (explode gs)) = mapM read_part (filter (overlaps_box b) (explode hs))); [|rewrite M; reflexivity].
    induction F as [|g h l l' A _ IH]; [reflexivity|]. cbn [filter]. rewrite (same_outside_overlaps b g h A). destruct (overlaps_box b h); [|exact IH].
    cbn [mapM]. rewrite (same_outside_part g h A), IH. reflexivity.
  Qed.
  Lemma multi_flat c dst l1 l l2 b : equals c dst = true -> (forall g m, In g l -> g <> GColl m) ->
    read equals to_crs (Some c) (l1 ++ GColl l :: l2) dst b = read equals to_crs (Some c) (l1 ++ l ++ l2) dst b.
  Proof.
    intros E N. unfold read, transform_to. rewrite E. cbn [bind]. assert (X : explode (l1 ++ GColl l :: l2) = explode (l1 ++ l ++ l2)); [|rewrite X; reflexivity].
    unfold explode. rewrite !flat_map_app. f_equal. cbn [flat_map]. f_equal. clear -N. induction l as [|g l IH]; [reflexivity|]. cbn [flat_map].
    rewrite <- IH by (intros h m I; apply N; right; exact I). destruct g; try reflexivity. destruct (N _ l0 (or_introl eq_refl) eq_refl).
  Qed.
  Lemma larger_box c dst gs b b' rows rows' : equals c dst = true -> proper b -> box_in b b' ->
    read equals to_crs (Some c) gs dst b = Ok rows -> read equals to_crs (Some c) gs dst b' = Ok rows' ->
    sub (convert_to_list rows) (convert_to_list rows').
  Proof.
    intros E P S R R'. assert (P' : proper b').
    { destruct b as [[[x0 x1] y0] y1], b' as [[[u0 u1] v0] v1]. unfold box_in, in_box, proper in *.
      destruct (S (x0, y0)) as [S1 S2]; [cbn; lra|]. destruct (S (x1, y1)) as [S3 S4]; [cbn; lra|]. cbn [fst snd] in *. lra. }
    assert (T : transform_to equals to_crs (Some c) gs dst = Ok gs) by (cbn; rewrite E; reflexivity).
    assert (K : forall b0 r, read equals to_crs (Some c) gs dst b0 = Ok r -> convert_to_list r = map (fun g => part_of (vertices g)) (chosen b0 gs)).
    { intros b0 r H. destruct (chosen b0 gs) as [|g l] eqn:X; [rewrite (read_bad (Some c) gs dst b0 gs T (or_introl X)) in H; discriminate|].
      rewrite <- X. assert (DS : Forall supported (chosen b0 gs) \/ ~ Forall supported (chosen b0 gs)).
      { clear. induction (chosen b0 gs) as [|g l [IH|IH]]; [left; constructor| |right; intros H; inversion H; tauto].
        destruct (supported_dec g); [left; constructor; assumption|right; intros H'; inversion H'; tauto]. }
      destruct DS as [DS|DS]; [|rewrite (read_bad (Some c) gs dst b0 gs T (or_intror DS)) in H; discriminate].
      destruct (read_ok (Some c) gs dst b0 gs T ltac:(rewrite X; discriminate) DS) as (r' & A & B). congruence. }
    rewrite (K b rows R), (K b' rows' R'). unfold chosen. clear -P P' S. induction (explode gs) as [|g l IH]; [constructor|]. cbn [filter].
    destruct (overlaps_box b g) eqn:A.
    - assert (A' : overlaps_box b' g = true). { apply (overlaps_extent b' g P'), (extent_larger b b' _ S), (overlaps_extent b g P), A. }
      rewrite A'. cbn [map]. apply sub_keep, IH.
    - destruct (overlaps_box b' g); [apply sub_skip|]; exact IH.
  Qed.
  Lemma crs_missing gs dst b : read equals to_crs None gs dst b = Raise AttributeError.
  Proof. reflexivity. Qed.
  Lemma crs_used c gs dst b c' : equals c' dst = true ->
    read equals to_crs (Some c) gs dst b = if equals c dst then read equals to_crs (Some c') gs dst b else let! s := to_crs c dst gs in read equals to_crs (Some c') s dst b.
  Proof.
    intros E. unfold read, transform_to. rewrite E. destruct (equals c dst); [reflexivity|]. destruct (to_crs c dst gs); reflexivity.
  Qed.
End Read.

(** * Witnesses *)
Definition shifted (c d : bool) (gs : list geom) : res (list geom) :=
  let f := map (fun p : point => (fst p + 10, snd p)) in
  Ok (map (fun g => match g with GPoint p => GPoint p | GLine z l => GLine z (f l) | GPoly z e h => GPoly z (f e) (map f h) | GColl l => GColl l end) gs).
Definition bay : list point := [(1, 2); (3, 2); (3, 4); (1, 2)].
Definition reef : list point := [(5, 6); (7, 6); (7, 8)].
Definition far : list point := [(20, 1); (30, 1); (30, 2)].
Definition chart : list geom := [GColl [GPoly true bay [[(2, 21 # 10); (27 # 10, 25 # 10); (2, 21 # 10)]]; GLine false far]; GLine false reef].
Lemma chart_outlines : outlines chart [bay; far; reef].
Proof. apply (ol_multi _ _ [bay; far] [reef]); [repeat constructor|]. apply ol_one; [reflexivity|constructor]. Qed.
Lemma chart_flat : Forall no_third chart.
Proof. repeat constructor. Qed.
Lemma bay_in : extent_meets (0, 10, 0, 10) bay.
Proof. apply (vertex_inside _ _ (1, 2)); [left; reflexivity|]. cbn. lra. Qed.
Lemma chart_picked : picked (extent_meets (0, 10, 0, 10)) [bay; far; reef] [bay; reef].
Proof.
  apply pk_yes; [exact bay_in|]. apply pk_no; [|apply pk_yes; [|constructor]].
  - apply (all_beside (0, 10, 0, 10) far). right. left. intros p [<-|[<-|[<-|[]]]]; cbn; lra.
  - apply (vertex_inside _ _ (5, 6)); [left; reflexivity|]. cbn. lra.
Qed.
Lemma diagonal_lost : exists gs b l p rows, gs = [GLine false l] /\ In p l /\ strictly_in_box b p /\
  read Bool.eqb shifted (Some true) gs true b = Ok rows /\ ~ In p (points_of rows).
Proof.
  exists [GLine false [(1, 1); (2, 1); (2, 3)]], (0, 4, 0, 4), [(1, 1); (2, 1); (2, 3)], (1, 1). eexists. split; [reflexivity|]. split; [left; reflexivity|].
  split; [cbn; lra|]. split; [vm_compute; reflexivity|]. cbn. intros [H|[H|[H|[]]]]; discriminate H.
Qed.
Lemma hole_lost : exists b e h rows, Forall (strictly_in_box b) e /\ Forall (strictly_in_box b) h /\ h <> [] /\ (forall p, In p (e ++ h) -> ~ fst p == snd p) /\
  read Bool.eqb shifted (Some true) [GPoly false e [h]] true b = Ok rows /\ forall p, In p h -> ~ In p (points_of rows).
Proof.
  exists (0, 10, 0, 10), [(1, 2); (3, 2); (3, 4); (1, 2)], [(2, 21 # 10); (27 # 10, 25 # 10); (2, 21 # 10)]. eexists.
  split; [repeat constructor; cbn; lra|]. split; [repeat constructor; cbn; lra|]. split; [discriminate|]. split.
  - intros p I. cbn in I. repeat (destruct I as [<-|I]; [cbn; lra|]). destruct I.
  - split; [vm_compute; reflexivity|]. intros p I J. cbn in I, J. repeat (destruct I as [<-|I]; [repeat (destruct J as [J|J]; [discriminate J|]); destruct J|]). destruct I.
Qed.
Lemma no_crs_refused : exists gs b, outlines gs [bay] /\ Forall no_third gs /\ extent_meets b bay /\ forall crs equals to_crs (dst : crs),
  read equals to_crs None gs dst b = Raise AttributeError.
Proof.
  exists [GLine false bay], (0, 10, 0, 10). split; [apply ol_one; [reflexivity|constructor]|]. split; [repeat constructor|]. split; [exact bay_in|]. intros. reflexivity.
Qed.
Lemma third_uneven : exists b ps, extent_meets b ps /\ (exists rows, read Bool.eqb shifted (Some true) [GPoly true ps []] true b = Ok rows) /\
  (exists rows, read Bool.eqb shifted (Some true) [GLine false ps] true b = Ok rows) /\ read Bool.eqb shifted (Some true) [GLine true ps] true b = Raise ValueError.
Proof.
  exists (0, 10, 0, 10), bay. split; [exact bay_in|]. split; [eexists; vm_compute; reflexivity|]. split; [eexists; vm_compute; reflexivity|]. vm_compute; reflexivity.
Qed.
