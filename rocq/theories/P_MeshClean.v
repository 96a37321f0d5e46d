(** Proofs about mesh_clean. *)
From Coq Require Import List Arith Bool Lia Relations Permutation Sorted ZArith QArith Qabs Lqa.
From Verif Require Import M_Base M_Numpy M_Edges M_FixMesh M_Adjacency M_Clean.
From Verif Require Import S_Edges S_FixMesh S_Adjacency S_Clean Util P_Edges P_FixMesh P_Adjacency P_Search P_Exterior P_Interior P_Traversable P_OneFace P_Laplacian P_CleanMore.
Import ListNotations.
Open Scope nat_scope.

Lemma no_two_perm {A} (R : A -> A -> Prop) l l' : (forall x y, R x y -> R y x) -> Permutation l l' -> no_two R l -> no_two R l'.
Proof.
  intros Hs HP. unfold no_two. induction HP; intros H; auto.
  - inversion H; subst. constructor; auto. eapply Permutation_Forall; eauto.
  - inversion H as [|? ? Hf H']; subst. inversion H' as [|? ? Hf' H'']; subst. inversion Hf; subst.
    constructor; [constructor; [intros HR; auto|auto]|constructor; auto].
Qed.
Lemma no_two_app {A} (R : A -> A -> Prop) l l' x y : no_two R (l ++ l') -> In x l -> In y l' -> ~ R x y.
Proof.
  unfold no_two. induction l as [|a l IH]; intros H Hx Hy; [contradiction|]. simpl in H. inversion H as [|? ? Hf H']; subst.
  destruct Hx as [->|Hx]; auto. rewrite Forall_forall in Hf. apply Hf. apply in_or_app. now right.
Qed.
Lemma perm_map_inj (m : nat -> nat) l l' : (forall x y, In x (l ++ l') -> In y (l ++ l') -> m x = m y -> x = y) ->
  Permutation (map m l) (map m l') -> Permutation l l'.
Proof.
  revert l'. induction l as [|a l IH]; intros l' Hinj HP.
  - apply Permutation_nil in HP. apply map_eq_nil in HP. subst. constructor.
  - simpl in HP. assert (Hin : In (m a) (map m l')) by (eapply Permutation_in; [exact HP|now left]).
    apply in_map_iff in Hin. destruct Hin as (b & Hb & Hin).
    assert (b = a). { apply Hinj; auto; [apply in_or_app; now right|apply in_or_app; left; now left]. } subst b.
    apply in_split in Hin. destruct Hin as (l1 & l2 & ->). apply Permutation_cons_app. apply IH.
    + intros x y Hx Hy. apply Hinj; (apply in_app_iff in Hx; apply in_app_iff in Hy; rewrite in_app_iff in *; simpl; rewrite ?in_app_iff in *; simpl; tauto).
    + rewrite map_app in *. simpl in HP. apply Permutation_cons_app_inv in HP. exact HP.
Qed.

Section MeshClean.
  Variable argsort : list nat -> list nat.
  Hypothesis Ha : is_argsort argsort.
  Variable kleb : Z * Z -> Z * Z -> bool.
  Hypothesis Hk : total_order kleb.
  Variable qual : list point -> tri -> option Q.
  Variable m : Q.
  Hypothesis Hm : (0 <= m)%Q.

  Lemma fix_keeps_traversable p ts p' t' jx : separated ptol_default p -> no_two same_vertices ts ->
    manifold ts -> Forall nondegenerate ts -> traversable ts ->
    fix_mesh kleb ptol_default p ts true = Ok (p', t', jx) -> traversable t'.
  Proof.
    intros Hsep Hnt Hmf Hnd Htr Hf.
    destruct (fix_sub kleb Hk ptol_default _ _ _ _ _ ptol_pos Hsep Hf) as (_ & _ & _ & M1 & N1).
    destruct (fix_separated kleb Hk ptol_default _ _ _ _ _ ptol_pos Hsep Hf) as (_ & mp & ts1 & rest & HP & HF & Hall & _ & Hinj).
    assert (Hin1 : forall t, In t ts1 -> In t ts).
    { intros t Ht. apply (Permutation_in _ (Permutation_sym HP)). apply in_or_app. now left. }
    assert (rest = []).
    { destruct rest as [|t rest]; auto. exfalso.
      assert (Ht : In t ts) by (apply (Permutation_in _ (Permutation_sym HP)); apply in_or_app; right; now left).
      destruct (Hall t Ht) as (s & Hs & Hi). destruct (Forall2_In_r _ _ _ _ HF Hs) as (t1 & Ht1 & Hi1).
      apply (no_two_perm _ _ _ (fun x y H => Permutation_sym H) HP) in Hnt.
      apply (no_two_app _ _ _ t1 t Hnt Ht1); [now left|]. unfold same_vertices. apply (perm_map_inj mp).
      - intros x y Hx Hy. apply in_app_iff in Hx, Hy.
        destruct Hx as [Hx|Hx], Hy as [Hy|Hy]; eauto.
      - eapply Permutation_trans; [exact Hi1|]. now apply Permutation_sym. }
    subst rest. rewrite app_nil_r in HP.
    assert (Hmem : forall u, In u (flat_map corners ts) -> exists t, In t ts /\ In u (corners t)) by (intros u Hu; now apply in_flat_map in Hu).
    assert (Hinj' : forall u v, (exists t, In t ts /\ In u (corners t)) -> (exists t, In t ts /\ In v (corners t)) -> mp u = mp v -> u = v).
    { intros u v (t & Ht & Hu) (s & Hs & Hv). eauto. }
    assert (Huse : forall u v, (exists t, In t ts /\ In u (corners t)) -> (exists t, In t ts /\ In v (corners t)) ->
               edge_uses (mp u) (mp v) t' = edge_uses u v ts).
    { intros u v Hu' Hv'. rewrite (edge_uses_perm u v ts ts1 HP). apply edge_uses_image; auto.
      assert (G : forall x, In x (u :: v :: flat_map corners ts1) -> exists t, In t ts /\ In x (corners t)).
      { intros x [<-|[<-|Hx]]; auto. apply in_flat_map in Hx. destruct Hx as (t & Ht & Hx). eauto. }
      intros x y Hx Hy. apply Hinj'; auto. }
    assert (Hpre : forall z, (exists s, In s t' /\ In z (corners s)) -> exists u, mp u = z /\ exists t, In t ts /\ In u (corners t)).
    { intros z (s & Hs & Hz). destruct (Forall2_In_r _ _ _ _ HF Hs) as (t & Ht & Hi).
      apply (Permutation_in _ (Permutation_sym Hi)) in Hz. apply in_map_iff in Hz. destruct Hz as (u & Hu & Hin). exists u. split; auto. exists t. auto. }
    apply exit_traversable; auto.
    apply Nat.le_trans with (length (get_boundary_edges ts)); [|rewrite (traversable_exit ts Hnd Htr)].
    - rewrite <- (map_length (fun e => sort_edge (mp (fst e), mp (snd e))) (get_boundary_edges ts)).
      apply NoDup_incl_length; [apply get_boundary_edges_NoDup|]. intros [x y] He. apply get_boundary_edges_In in He. destruct He as [Hxy He].
      destruct (Hpre x) as (u & <- & Hu). { apply (edge_uses_corner t' y x). rewrite edge_uses_sym. lia. }
      destruct (Hpre y) as (v & <- & Hv). { apply (edge_uses_corner t' (mp u) y). lia. }
      rewrite Huse in He by auto. apply in_map_iff. destruct (le_ge_dec u v).
      + exists (u, v). split; [|apply get_boundary_edges_In; auto]. unfold sort_edge. cbn [fst snd]. f_equal; lia.
      + exists (v, u). split; [|apply get_boundary_edges_In; rewrite edge_uses_sym; auto]. unfold sort_edge. cbn [fst snd]. f_equal; lia.
    - rewrite <- (map_length mp (bverts ts)). apply NoDup_incl_length.
      + apply NoDup_map_inv'; [apply bverts_NoDup|]. intros a b H1 H2 E.
        apply bverts_In, boundary_ends_In in H1, H2. destruct H1 as (y & Hy), H2 as (z & Hz).
        apply Hinj'; auto; [apply (edge_uses_corner ts y a); lia|apply (edge_uses_corner ts z b); lia].
      + intros x Hx. apply in_map_iff in Hx. destruct Hx as (u & <- & Hx). apply bverts_In, boundary_ends_In in Hx.
        destruct Hx as (y & Hy). apply bverts_In, boundary_ends_In. exists (mp y).
        rewrite Huse; auto; [apply (edge_uses_corner ts u y); rewrite edge_uses_sym; lia|apply (edge_uses_corner ts y u); lia].
  Qed.

  Lemma traversable_range fuel draw : (forall c k n, 0 < n -> draw c k n < n) -> forall c p ts p' t', Forall (in_range (length p)) ts ->
    traversable_loop argsort kleb qual fuel draw c p ts m = Ok (p', t') ->
    Forall (in_range (length p')) t' /\ (no_two same_vertices ts -> no_two same_vertices t').
  Proof.
    intros Hdraw. induction fuel as [|fuel IH]; intros c p ts p' t' Hr H; [discriminate|]. cbn [traversable_loop] in H.
    destruct (has_boundary_dec ts) as [Hb|Hb]; [|rewrite external_topology_closed in H by auto; discriminate].
    rewrite external_topology_ok in H by auto. cbn [bind fst snd] in H.
    destruct (Nat.leb_spec (length (get_boundary_edges ts)) (length (bverts ts))) as [Hle|Hgt].
    { injection H as <- <-. auto. }
    destruct (pass argsort Ha kleb Hk qual draw Hdraw m Hm p ts c Hr Hgt) as (keep & Hd & _ & _ & Hp).
    rewrite Hd in H. cbn [bind] in H. destruct keep as [|i keep]; [discriminate|].
    destruct Hp as (p1 & t2 & j1 & F1 & D0 & D1); [discriminate|].
    cbn [faces_at map] in H. change (nth i ts no_face :: map (fun i0 : nat => nth i0 ts no_face) keep) with (faces_at ts (i :: keep)) in H.
    rewrite F1 in H. cbn [bind] in H.
    destruct (has_boundary_dec t2) as [Hb2|Hb2]; [|rewrite (D0 Hb2) in H; discriminate].
    destruct (D1 Hb2) as (del & p2 & t3 & j2 & D & F2 & R & _). rewrite D in H. cbn [bind fst] in H. rewrite F2 in H. cbn [bind] in H.
    destruct (IH _ _ _ _ _ R H) as [G1 G2]. split; auto. intros _. apply G2.
    unfold fix0 in F2. apply (fix_mesh_wf kleb ptol_default Hk) in F2. apply F2.
  Qed.

  Lemma one_face_nodup fuel : forall count mi p ts p' t',
    one_face_loop argsort kleb fuel count mi p ts = Ok (p', t') -> no_two same_vertices ts -> all_used (length p) ts ->
    no_two same_vertices t' /\ all_used (length p') t'.
  Proof.
    induction fuel as [|fuel IH]; intros count mi p ts p' t' H Hn Hu; [discriminate|]. cbn [one_face_loop] in H.
    destruct (match mi with None => true | Some k => count <? k end); [|injection H as <- <-; auto].
    destruct (one_neighbour argsort ts) as [|f del]; [injection H as <- <-; auto|].
    destruct (fix0 kleb p (delete_at ts (f :: del))) as [[[p1 t1] j]| |] eqn:E; try discriminate. cbn [bind] in H.
    unfold fix0 in E. destruct (fix_match kleb Hk ptol_default _ _ _ _ _ E) as (m1 & ts1 & rest & _ & _ & Hu1 & _).
    apply (IH _ _ _ _ _ _ H); auto. apply (fix_mesh_wf kleb ptol_default Hk) in E. apply E.
  Qed.

  Lemma delete_boundary_inv p ts mq p' t' : delete_boundary_faces argsort kleb qual p ts mq = Ok (p', t') ->
    exists del j, fix_mesh kleb ptol_default p (faces_at ts (kept (length ts) del)) true = Ok (p', t', j).
  Proof.
    unfold delete_boundary_faces. destruct (forallb _ ts); [|discriminate]. cbn [bind].
    destruct (get_boundary_entities argsort p ts) as [bele| |]; try discriminate. cbn [bind]. rewrite delete_at_faces. unfold fix0.
    destruct (fix_mesh kleb ptol_default p _ true) as [[[p1 t1] j]| |] eqn:E; try discriminate. cbn [bind].
    intros H. injection H as <- <-. eauto.
  Qed.

  Lemma submesh_trans p ts p1 t1 p2 t2 : submesh p ts p1 t1 -> submesh p1 t1 p2 t2 -> submesh p ts p2 t2.
  Proof.
    intros [I1 F1] [I2 F2]. split; [intros x Hx; auto|]. intros s Hs. destruct (F2 s Hs) as (s1 & Hs1 & P1).
    destruct (F1 s1 Hs1) as (s2 & Hs2 & P2). exists s2. split; auto. eapply Permutation_trans; eauto.
  Qed.
  Lemma submesh_faces_at p ts l : (forall i, In i l -> i < length ts) -> submesh p ts p (faces_at ts l).
  Proof. intros Hl. split; [apply incl_refl|]. intros s Hs. exists s. split; auto. eapply faces_at_In; eauto. Qed.

  Lemma laplacian_shape stop k pfix p ts p' t' : all_used (length p) ts -> laplacian2 stop k pfix p ts = Ok (p', t') ->
    t' = ts /\ length p' = length p.
  Proof.
    intros Hu H. unfold laplacian2 in H.
    destruct (forallb _ ts); [|discriminate]. destruct (external_topology p ts) as [[be bv]| |]; try discriminate. cbn [bind snd] in H.
    destruct (mapM _ _) as [ifix| |]; try discriminate. cbn [bind] in H. destruct (existsb _ _); [injection H as <- <-; auto|].
    destruct (match pfix with Some [] => _ | _ => _ end); [discriminate|]. injection H as <- <-. split; auto. apply lap_loop_length.
  Qed.

  Variables draw1 draw2 : nat -> nat -> nat -> nat.
  Hypothesis Hd1 : forall c k n, 0 < n -> draw1 c k n < n.
  Hypothesis Hd2 : forall c k n, 0 < n -> draw2 c k n < n.

  Lemma mesh_clean_wf stop mq k pfix p ts p' t' :
    mesh_clean argsort kleb qual draw1 draw2 stop mq m k pfix p ts = Ok (p', t') ->
    all_used (length p') t' /\ no_two same_vertices t' /\ Forall (fun t => (0 <= area2 p' t)%Q) t' /\ no_two same_point p'.
  Proof.
    unfold mesh_clean. intros H.
    destruct (make_mesh_boundaries_traversable argsort kleb qual draw1 p ts m) as [[pa ta]| |]; try discriminate. cbn [bind fst snd] in H.
    destruct (delete_boundary_faces argsort kleb qual pa ta mq) as [[pb tb]| |]; try discriminate. cbn [bind fst snd] in H.
    destruct (delete_faces_connected_to_one_face argsort kleb None pb tb) as [[pc tc]| |]; try discriminate. cbn [bind fst snd] in H.
    destruct (laplacian2 stop k pfix pc tc) as [[pd td]| |]; try discriminate. cbn [bind fst snd] in H.
    destruct (make_mesh_boundaries_traversable argsort kleb qual draw2 pd td m) as [[pe te]| |]; try discriminate. cbn [bind fst snd] in H.
    unfold fix0 in H. destruct (fix_mesh kleb ptol_default pe te true) as [[[pf tf] j]| |] eqn:Ef; try discriminate. cbn [bind] in H.
    injection H as <- <-.
    destruct (fix_match kleb Hk ptol_default _ _ _ _ _ Ef) as (m1 & ts1 & rest & _ & _ & Hu & _).
    destruct (fix_mesh_wf kleb ptol_default Hk _ _ _ _ _ _ Ef) as (W1 & W2 & W3 & _). split; auto. split; auto. split; auto.
    eapply fix_mesh_merges; eauto.
  Qed.

  Lemma mesh_clean_spec stop mq k pfix p ts p' t' :
    Forall (in_range (length p)) ts -> separated ptol_default p -> manifold ts -> Forall nondegenerate ts ->
    mesh_clean argsort kleb qual draw1 draw2 stop mq m k pfix p ts = Ok (p', t') ->
    exists p1 t1 p2, submesh p ts p1 t1 /\ separated ptol_default p1 /\ laplacian2 stop k pfix p1 t1 = Ok (p2, t1) /\
      (separated ptol_default p2 -> traversable t' /\ manifold t' /\ Forall nondegenerate t' /\ submesh p2 t1 p' t').
  Proof.
    unfold mesh_clean. intros Hr Hsep Hmf Hnd H.
    destruct (make_mesh_boundaries_traversable argsort kleb qual draw1 p ts m) as [[pa ta]| |] eqn:Ea; try discriminate. cbn [bind fst snd] in H.
    destruct (delete_boundary_faces argsort kleb qual pa ta mq) as [[pb tb]| |] eqn:Eb; try discriminate. cbn [bind fst snd] in H.
    destruct (delete_faces_connected_to_one_face argsort kleb None pb tb) as [[pc tc]| |] eqn:Ec; try discriminate. cbn [bind fst snd] in H.
    destruct (laplacian2 stop k pfix pc tc) as [[pd td]| |] eqn:Ed; try discriminate. cbn [bind fst snd] in H.
    destruct (make_mesh_boundaries_traversable argsort kleb qual draw2 pd td m) as [[pe te]| |] eqn:Ee; try discriminate. cbn [bind fst snd] in H.
    unfold fix0 in H. destruct (fix_mesh kleb ptol_default pe te true) as [[[pf tf] j]| |] eqn:Ef; try discriminate. cbn [bind] in H.
    injection H as <- <-.
    destruct (traversable_result argsort Ha kleb Hk qual draw1 Hd1 m Hm _ _ _ _ _ _ Hr Ea) as (_ & _ & Ga). specialize (Ga Hsep).
    destruct Ga as (Sa & Sepa & Ma & Na). specialize (Ma Hmf). specialize (Na Hnd).
    destruct (delete_boundary_inv _ _ _ _ _ Eb) as (del & jb & Fb).
    destruct (fix_sub kleb Hk ptol_default _ _ _ _ _ ptol_pos Sepa Fb) as (Sepb & Sb & _ & Mb & Nb).
    assert (Mb' : manifold tb) by (apply Mb, faces_at_manifold; auto; [apply kept_NoDup|apply kept_in_lt]).
    assert (Nb' : Forall nondegenerate tb) by (apply Nb, faces_at_Forall; auto; apply kept_in_lt).
    assert (Sab : submesh p ts pb tb).
    { eapply submesh_trans; [exact Sa|]. eapply submesh_trans; [|exact Sb]. apply submesh_faces_at, kept_in_lt. }
    destruct (fix_match kleb Hk ptol_default _ _ _ _ _ Fb) as (m1 & ts1 & rest & _ & _ & Ub & _).
    assert (Db : no_two same_vertices tb) by (apply (fix_mesh_wf kleb ptol_default Hk) in Fb; apply Fb).
    pose proof (all_used_range _ _ Ub) as Rb.
    unfold delete_faces_connected_to_one_face in Ec.
    destruct (one_face_nodup _ _ _ _ _ _ _ Ec Db Ub) as [Dc Uc].
    destruct (one_face_total argsort Ha kleb Hk (S (length tb)) 0 None pb tb Rb) as (pc' & tc' & E1 & _ & E2 & _); [lia|].
    rewrite E1 in Ec. injection Ec as <- <-. destruct (E2 Sepb) as (Sc & Sepc & Mc & Nc). specialize (Mc Mb'). specialize (Nc Nb').
    destruct (laplacian_shape _ _ _ _ _ _ _ Uc Ed) as [-> Ld].
    exists pc', tc', pd. split; [eapply submesh_trans; eauto|]. split; [exact Sepc|]. split; [exact Ed|]. intros Sepd.
    assert (Rd : Forall (in_range (length pd)) tc') by (rewrite Ld; now apply all_used_range).
    destruct (traversable_result argsort Ha kleb Hk qual draw2 Hd2 m Hm _ _ _ _ _ _ Rd Ee) as (_ & Xe & Ge). specialize (Ge Sepd).
    destruct Ge as (Se & Sepe & Me & Ne). specialize (Me Mc). specialize (Ne Nc).
    destruct (traversable_range _ _ Hd2 _ _ _ _ _ Rd Ee) as [_ De]. specialize (De Dc).
    destruct (fix_sub kleb Hk ptol_default _ _ _ _ _ ptol_pos Sepe Ef) as (_ & Sf & _ & Mf & Nf).
    split; [|split; [auto|split; [auto|eapply submesh_trans; eauto]]].
    apply (fix_keeps_traversable _ _ _ _ _ Sepe De Me Ne) in Ef; auto. now apply exit_traversable.
  Qed.

  Lemma mesh_clean_no_smoothing stop mq pfix p ts p' t' :
    Forall (in_range (length p)) ts -> separated ptol_default p -> manifold ts -> Forall nondegenerate ts ->
    mesh_clean argsort kleb qual draw1 draw2 stop mq m 0 pfix p ts = Ok (p', t') -> traversable t' /\ submesh p ts p' t'.
  Proof.
    intros Hr Hsep Hmf Hnd H.
    assert (Hsm : forall p1 t1 p2, submesh p ts p1 t1 -> laplacian2 stop 0 pfix p1 t1 = Ok (p2, t1) -> p2 = p1).
    { intros p1 t1 p2 _ E. unfold laplacian2 in E. destruct (forallb _ t1); [|discriminate].
      destruct (external_topology p1 t1); try discriminate. cbn [bind] in E. destruct (mapM _ _); try discriminate. cbn [bind] in E.
      destruct (existsb _ _); [injection E as <-; auto|]. destruct (match pfix with Some [] => _ | _ => _ end); [discriminate|]. injection E as <-. reflexivity. }
    destruct (mesh_clean_spec stop mq 0 pfix p ts p' t' Hr Hsep Hmf Hnd H) as (p1 & t1 & p2 & S1 & Sep1 & E & G).
    rewrite (Hsm _ _ _ S1 E) in *. specialize (G Sep1). split; [apply G|]. eapply submesh_trans; [exact S1|apply G].
  Qed.
End MeshClean.
