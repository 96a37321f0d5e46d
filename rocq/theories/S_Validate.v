(** What the checks of multiscale domains are meant to guarantee, in terms of the domains only. *)
From Coq Require Import List Arith Bool ZArith QArith Qreals Reals String.
From Verif Require Import M_Base M_Sdf M_Region M_Validate S_Region.
Import ListNotations.
Open Scope Q_scope.

Section Spec.
  Context {user crs : Type} (parse : user -> option crs) (is4326 geographic : crs -> bool) (equals : crs -> crs -> bool) (st : Q * Q -> option (Q * Q)) {F : Type}.
  Notation dom := (vdomain user F).
  Definition at_index {A} (l : list A) (i : nat) (x : A) : Prop := nth_error l i = Some x.
  (** Only the first domain may be stereographic. *)
  Definition stereo_only_first (ds : list dom) : Prop := forall i d, at_index ds i d -> v_stereo _ _ d = true -> i = 0%nat.
  (** A sizing function with a CRS: it has the attribute, and the attribute is not None. *)
  Definition sizing_has (e : vsizing user) (u : user) : Prop := e = Some (Some u).
  (** CRS metadata nowhere, or on every domain. *)
  Definition crs_everywhere_or_nowhere (ds : list dom) (els : list (vsizing user)) : Prop :=
    (forall d, In d ds -> v_crs _ _ d <> None) \/ ((forall d, In d ds -> v_crs _ _ d = None) /\ (forall e u, In e els -> ~ sizing_has e u)).
  Definition is_wgs84 (u : user) : Prop := exists c, parse u = Some c /\ is4326 c = true.
  (** The corners of a longitude-latitude box, seen from above, lie in the box of the global domain. *)
  Definition corners_in (g b : Q * Q * Q * Q) : Prop := let '(x0, x1, y0, y1) := b in
    forall x y, (x = x0 \/ x = x1) -> (y = y0 \/ y = y1) -> exists q, st (x, y) = Some q /\ in_box g q.
  Definition region_in_global (g d : dom) : Prop :=
    exists gb db, v_bbox _ _ g = Some gb /\ v_bbox _ _ d = Some db /\ (world_like gb \/ corners_in gb db).
  (** With a global domain in front: its CRS is EPSG:4326 and every other domain has an understood CRS (or none) and
      lies in its box. *)
  Definition global_rules (g : dom) (ds : list dom) : Prop :=
    (forall u, v_crs _ _ g = Some u -> is_wgs84 u) /\
    forall i d, at_index ds (S i) d -> region_in_global g d /\
      (forall u r, v_crs _ _ g = Some u -> v_crs _ _ d = Some r -> (exists c, parse u = Some c /\ geographic c = true) /\ parse r <> None).
  (** The first domain, if any, that has CRS EPSG:4326 and covers the world. *)
  Definition covers_world (d : dom) : Prop := exists u b, v_crs _ _ d = Some u /\ is_wgs84 u /\ v_bbox _ _ d = Some b /\ world_like b.
  Definition first_world (ds : list dom) (k : nat) (d : dom) : Prop :=
    at_index ds k d /\ covers_world d /\ forall j e, (j < k)%nat -> at_index ds j e -> ~ covers_world e.
  (** A domain with another CRS follows, and every CRS before it is understood. *)
  Definition mixed (ds : list dom) (k : nat) (d : dom) : Prop :=
    exists j e u c r p, j <> k /\ at_index ds j e /\ v_crs _ _ d = Some u /\ parse u = Some c /\ v_crs _ _ e = Some r /\ parse r = Some p /\ equals c p = false /\
      forall j' e' r', (j' < j)%nat -> j' <> k -> at_index ds j' e' -> v_crs _ _ e' = Some r' -> parse r' <> None.
  Definition no_hidden_global (ds : list dom) : Prop := forall k d, first_world ds k d -> v_stereo _ _ d = false -> ~ mixed ds k d.
  Definition sizing_crs_match (ds : list dom) (els : list (vsizing user)) : Prop :=
    forall i d e eu du, at_index ds i d -> at_index els i e -> sizing_has e eu -> v_crs _ _ d = Some du ->
      exists ec dc, parse eu = Some ec /\ parse du = Some dc /\ equals ec dc = true.
  (** Everything that is checked. *)
  Definition accepts (ds : list dom) (els : list (vsizing user)) : Prop :=
    List.length ds = List.length els /\ stereo_only_first ds /\ crs_everywhere_or_nowhere ds els /\
    (forall g, at_index ds 0 g -> v_stereo _ _ g = true -> global_rules g ds) /\
    no_hidden_global ds /\ sizing_crs_match ds els.
  (** The domain that is taken for the global one: the only stereographic one. *)
  Definition only_stereo (ds : list dom) (g : dom) : Prop :=
    exists k, at_index ds k g /\ v_stereo _ _ g = true /\ forall j d, at_index ds j d -> v_stereo _ _ d = true -> j = k.
  (** Which defect each numbered message reports; [i] is the domain's index in the list. *)
  Definition some_crs (ds : list dom) (els : list (vsizing user)) : Prop := (exists d u, In d ds /\ v_crs _ _ d = Some u) \/ exists e u, In e els /\ sizing_has e u.
  Definition incompatible (g d : dom) : Prop := exists u r, v_crs _ _ g = Some u /\ v_crs _ _ d = Some r /\
    ~ ((exists c, parse u = Some c /\ geographic c = true /\ is4326 c = true) /\ parse r <> None).
  Definition has_defect (ds : list dom) (els : list (vsizing user)) (m : verr) : Prop :=
    match m with
    | ENoCrs i => some_crs ds els /\ exists d, at_index ds i d /\ v_crs _ _ d = None
    | ENotContained i => (1 <= i)%nat /\ exists g d gb db, only_stereo ds g /\ at_index ds i d /\ v_bbox _ _ g = Some gb /\ v_bbox _ _ d = Some db /\ ~ region_in_global g d
    | EContainFailed i => (1 <= i)%nat /\ exists g d, only_stereo ds g /\ at_index ds i d /\ (v_bbox _ _ g = None \/ v_bbox _ _ d = None)
    | ERegionStereo i => (1 <= i)%nat /\ exists g, only_stereo ds g /\ at_index ds i g
    | EIncompatible i => (1 <= i)%nat /\ exists g d, only_stereo ds g /\ at_index ds i d /\ incompatible g d
    | EEdgeCrs i => exists d e eu du ec dc, at_index ds i d /\ at_index els i e /\ sizing_has e eu /\ v_crs _ _ d = Some du /\
        parse eu = Some ec /\ parse du = Some dc /\ equals ec dc = false
    | EEdgeCrsFailed i => exists d e eu du, at_index ds i d /\ at_index els i e /\ sizing_has e eu /\ v_crs _ _ d = Some du /\ (parse eu = None \/ parse du = None)
    | EGlobalNotFirst => exists g k, only_stereo ds g /\ at_index ds (S k) g
    | EManyGlobal => exists i j d e, i <> j /\ at_index ds i d /\ at_index ds j e /\ v_stereo _ _ d = true /\ v_stereo _ _ e = true
    | EGlobalCrs => exists g u c, only_stereo ds g /\ v_crs _ _ g = Some u /\ parse u = Some c /\ is4326 c = false
    | EGlobalCrsUnparsed => exists g u, only_stereo ds g /\ v_crs _ _ g = Some u /\ parse u = None
    | EImplicitMix => exists k d, first_world ds k d /\ v_stereo _ _ d = false /\ mixed ds k d
    | ELength => False
    end.
End Spec.

(** Equal up to the evaluation functions. *)
Definition same_metadata {user F G : Type} (d : vdomain user F) (e : vdomain user G) : Prop :=
  v_stereo _ _ d = v_stereo _ _ e /\ v_crs _ _ d = v_crs _ _ e /\ v_bbox _ _ d = v_bbox _ _ e.

(** Options: the least of the smallest sizes. *)
Definition least_of (l : list Q) (m : Q) : Prop := In m l /\ forall x, In x l -> m <= x.

Definition in_real_box (b : Q * Q * Q * Q) (p : R * R) : Prop := let '(x0, x1, y0, y1) := b in (Q2R x0 <= fst p <= Q2R x1 /\ Q2R y0 <= snd p <= Q2R y1)%R.

(** * Options *)
Section Options.
  Context {dom siz cells : Type} (gen : dom -> siz -> kwargs -> res (list (Q * Q) * cells)) (hmin : siz -> option Q).
  Notation nest := (dom * bool * siz)%type.
  (** The options a nest is meshed with. *)
  Definition nest_options (kw : kwargs) (s : bool) (k : kwargs) : Prop :=
    lookup "stereo" k = Some (VBool s) /\ forall x, x <> "stereo"%string -> lookup x k = lookup x kw.
  Definition nest_meshed (kw : kwargs) (n : nest) (m : list (Q * Q) * cells) : Prop :=
    let '(d, s, e) := n in exists k, nest_options kw s k /\ gen d e k = Ok m.
  Definition taken_in_nests : list string := ["stereo"; "domain"; "edge_length"]%string.
  Definition taken_at_end : list string := ["domain"; "edge_length"; "min_edge_length"; "points"; "lock_boundary"]%string.
  Definition sizes_of (nests : list nest) : list Q := flat_map (fun n => match hmin (snd n) with Some h => [h] | None => [] end) nests.
  Definition ok_lengths (n m : nat) : Prop := (2 <= n)%nat /\ n = m.
End Options.
