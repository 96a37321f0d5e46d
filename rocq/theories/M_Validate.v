(** Model of the checks on domains and sizing functions and of the option handling of generate_multiscale_mesh
    (oceanmesh/mesh_generator.py:280-562, 569-727). *)
From Coq Require Import List Arith Bool ZArith QArith String.
From Verif Require Import M_Base M_Sdf M_Grid M_Region M_Dem.
Import ListNotations.
Open Scope Q_scope.

(** One constructor per message; the number is the index in the message. *)
Inductive verr : Type :=
| ELength | EManyGlobal | EGlobalNotFirst | ENoCrs (i : nat) | EGlobalCrs | EGlobalCrsUnparsed
| ENotContained (i : nat) | EContainFailed (i : nat) | ERegionStereo (i : nat) | EIncompatible (i : nat)
| EImplicitMix | EEdgeCrs (i : nat) | EEdgeCrsFailed (i : nat).

Section Validate.
  (** What users pass as CRS, what pyproj makes of it (None: CRS.from_user_input raises), and pyproj's predicates:
      to_epsg() == 4326, is_geographic, equals. *)
  Variables (user crs : Type) (parse : user -> option crs) (is4326 geographic : crs -> bool) (equals : crs -> crs -> bool).
  (** to_stereo at one point; None is a result that is not finite (south pole). *)
  Variable st : Q * Q -> option (Q * Q).
  (** The evaluation part of a domain. *)
  Variable F : Type.
  (** What the checks read of a domain: getattr(d, "stereo", False), getattr(d, "crs", None), d.bbox (None: not four
      values). *)
  Record vdomain : Type := { v_stereo : bool; v_crs : option user; v_bbox : option box; v_eval : F }.
  (** A sizing function: None if it has no attribute crs. *)
  Definition vsizing := option (option user).
  Definition el_crs (e : vsizing) : option user := match e with Some c => c | None => None end.

  (** mesh_generator.py:321-322. *)
  Fixpoint stereo_indices (i : nat) (ds : list vdomain) : list nat :=
    match ds with [] => [] | d :: r => if v_stereo d then i :: stereo_indices (S i) r else stereo_indices (S i) r end.
  (** mesh_generator.py:313-332: the global domain and the new messages. *)
  Definition find_global_domain (ds : list vdomain) : option vdomain * list verr :=
    match stereo_indices 0 ds with
    | [] => (None, [])
    | [i] => (nth_error ds i, if (i =? 0)%nat then [] else [EGlobalNotFirst])
    | _ => (None, [EManyGlobal])
    end.
  (** mesh_generator.py:335-350. *)
  Definition global_like (d : vdomain) : bool :=
    match v_crs d with
    | Some u => match parse u with
                | Some c => is4326 c && match v_bbox d with Some b => is_global_bbox b | None => false end
                | None => false end
    | None => false end.
  Fixpoint detect_implicit (i : nat) (ds : list vdomain) : option nat :=
    match ds with [] => None | d :: r => if global_like d then Some i else detect_implicit (S i) r end.
  (** mesh_generator.py:353-360. *)
  Definition has (o : option user) : bool := match o with Some _ => true | None => false end.
  Definition has_any_crs (ds : list vdomain) (els : list vsizing) : bool := existsb (fun d => has (v_crs d)) ds || existsb (fun e => has (el_crs e)) els.
  (** mesh_generator.py:363-368. *)
  Fixpoint crs_presence (i : nat) (ds : list vdomain) : list verr :=
    match ds with [] => [] | d :: r => (if has (v_crs d) then [] else [ENoCrs i]) ++ crs_presence (S i) r end.
  (** region.py:57-96 validate_crs_compatible: only the Boolean. *)
  Definition compatible (g r : option user) : bool :=
    match g, r with
    | Some gu, Some ru => match parse gu, parse ru with
                          | Some gc, Some _ => geographic gc && is4326 gc
                          | _, _ => false end
    | _, _ => true
    end.
  (** mesh_generator.py:374-391. *)
  Definition global_crs_errors (g : vdomain) : list verr :=
    match v_crs g with
    | None => []
    | Some u => match parse u with Some c => if is4326 c then [] else [EGlobalCrs] | None => [EGlobalCrsUnparsed] end
    end.
  (** mesh_generator.py:399-408: the box of the four corner images. *)
  Definition corner_box (b : box) : option box :=
    match st (b0 b, b2 b), st (b1 b, b2 b), st (b1 b, b3 b), st (b0 b, b3 b) with
    | Some p, Some q, Some r, Some s =>
        Some (pmin (pmin (pmin (fst p) (fst q)) (fst r)) (fst s), pmax (pmax (pmax (fst p) (fst q)) (fst r)) (fst s),
              pmin (pmin (pmin (snd p) (snd q)) (snd r)) (snd s), pmax (pmax (pmax (snd p) (snd q)) (snd r)) (snd s))
    | _, _, _, _ => None
    end.
  (** mesh_generator.py:395-421; None is the except branch.  A corner box with inf or nan is contained only in a
      global-like box. *)
  Definition contained (g d : vdomain) : option bool :=
    match v_bbox g, v_bbox d with
    | Some gb, Some db =>
        if v_stereo g then match corner_box db with Some sb => Some (bbox_contains gb sb) | None => Some (is_global_bbox gb) end
        else Some (bbox_contains gb db)
    | _, _ => None
    end.
  (** mesh_generator.py:394-432. *)
  Definition region_errors (g : vdomain) (i : nat) (d : vdomain) : list verr :=
    (match contained g d with Some true => [] | Some false => [ENotContained i] | None => [EContainFailed i] end) ++
    (if v_stereo d then [ERegionStereo i] else []) ++
    (if compatible (v_crs g) (v_crs d) then [] else [EIncompatible i]).
  Fixpoint regions_errors (g : vdomain) (i : nat) (ds : list vdomain) : list verr :=
    match ds with [] => [] | d :: r => region_errors g i d ++ regions_errors g (S i) r end.
  Definition global_and_regions (g : vdomain) (ds : list vdomain) : list verr := global_crs_errors g ++ regions_errors g 1 (tl ds).
  (** mesh_generator.py:438-462: the loop; an unparsable CRS ends it silently. *)
  Fixpoint mixing_loop (ig : crs) (skip j : nat) (ds : list vdomain) : list verr :=
    match ds with
    | [] => []
    | d :: r =>
        if (j =? skip)%nat then mixing_loop ig skip (S j) r
        else match v_crs d with
             | None => mixing_loop ig skip (S j) r
             | Some u => match parse u with
                         | None => []
                         | Some c => if equals ig c then mixing_loop ig skip (S j) r else [EImplicitMix]
                         end
             end
    end.
  Definition implicit_mixing (ds : list vdomain) (k : nat) : list verr :=
    match nth_error ds k with
    | None => []
    | Some d => if v_stereo d then []
                else match v_crs d with
                     | None => []
                     | Some u => match parse u with None => [] | Some c => mixing_loop c k 0 ds end
                     end
    end.
  (** mesh_generator.py:465-483 over zip. *)
  Fixpoint edge_errors (i : nat) (ds : list vdomain) (els : list vsizing) : list verr :=
    match ds, els with
    | d :: dr, e :: er =>
        (match el_crs e, v_crs d with
         | Some eu, Some du => match parse eu, parse du with
                               | Some ec, Some dc => if equals ec dc then [] else [EEdgeCrs i]
                               | _, _ => [EEdgeCrsFailed i] end
         | _, _ => [] end) ++ edge_errors (S i) dr er
    | _, _ => []
    end.
  (** mesh_generator.py:486-526. *)
  Definition validate (ds : list vdomain) (els : list vsizing) : bool * list verr :=
    if negb (List.length ds =? List.length els)%nat then (false, [ELength])
    else
      let '(g, e1) := find_global_domain ds in
      let k := detect_implicit 0 ds in
      let e2 := if has_any_crs ds els || match k with Some _ => true | None => false end then crs_presence 0 ds else [] in
      let e3 := match g with Some d => global_and_regions d ds | None => [] end in
      let e4 := match k with Some i => implicit_mixing ds i | None => [] end in
      let e5 := edge_errors 0 ds els in
      let errors := e1 ++ e2 ++ e3 ++ e4 ++ e5 in
      (match errors with [] => true | _ => false end, errors).
End Validate.

(** * Options *)
(** Values of keyword arguments. *)
Inductive value : Type := VBool (b : bool) | VNum (q : Q) | VPoints (l : list (Q * Q)) | VOther (n : nat).
Definition kwargs := list (string * value).
Definition names (k : kwargs) : list string := map fst k.
Definition mem (s : string) (l : list string) : bool := existsb (String.eqb s) l.
(** mesh_generator.py:281-300. *)
Definition accepted : list string :=
  ["nscreen"; "max_iter"; "seed"; "pfix"; "points"; "domain"; "edge_length"; "bbox"; "min_edge_length"; "plot"; "blend_width";
   "blend_polynomial"; "blend_max_iter"; "blend_nnear"; "lock_boundary"; "pseudo_dt"; "stereo"]%string.
(** mesh_generator.py:280-305. *)
Definition parse_kwargs (k : kwargs) : res unit := if forallb (fun s => mem s accepted) (names k) then Ok tt else Raise ValueError.
(** Python: a call f(<positional>, name=value..., **k) raises TypeError when a name of k is given twice. *)
Definition call_with (taken : list string) (explicit k : kwargs) : res kwargs :=
  if existsb (fun s => mem s (taken ++ names explicit)) (names k) then Raise TypeError else Ok (explicit ++ k).
(** dict(kwargs); pop(name, None). *)
Definition pop (s : string) (k : kwargs) : kwargs := filter (fun p => negb (String.eqb s (fst p))) k.
(** d[name] = value. *)
Fixpoint assign (s : string) (v : value) (k : kwargs) : kwargs :=
  match k with [] => [(s, v)] | p :: r => if String.eqb s (fst p) then (s, v) :: r else p :: assign s v r end.
Definition lookup (s : string) (k : kwargs) : option value := option_map snd (find (fun p => String.eqb s (fst p)) k).

Section Multi.
  Variables dom siz cells : Type.
  (** generate_mesh with its two positional arguments and its keywords. *)
  Variable gen : dom -> siz -> kwargs -> res (list (Q * Q) * cells).
  (** edge_length.hmin (None: no such attribute); finite after _sanitize_smoothed_sizing_grids. *)
  Variable hmin : siz -> option Q.
  (** mesh_generator.py:691-705: the nests with their stereo flags and sizing functions. *)
  Fixpoint build_nests (nests : list (dom * bool * siz)) (kw : kwargs) (gm : Q) (acc : list (list (Q * Q))) : res (Q * list (list (Q * Q))) :=
    match nests with
    | [] => Ok (gm, acc)
    | (d, s, e) :: r =>
        match hmin e with
        | None => Raise AttributeError
        | Some h =>
            let gm' := if Qle_bool gm h then gm else h in
            let! k := call_with ["domain"; "edge_length"]%string [("stereo"%string, VBool s)] kw in
            let! m := gen d e k in
            build_nests r kw gm' (acc ++ [fst m])
        end
    end.
  (** mesh_generator.py:641-727.  [ok] is the verdict of _validate_multiscale_domains; [nests], [union] and [master]
      are what multiscale_signed_distance_function and multiscale_sizing_function return; [blend_max_iter] is its
      value in opts; np.concatenate of no arrays raises. *)
  Definition generate_multiscale_mesh (n_domains n_sizes : nat) (ok : bool) (nests : list (dom * bool * siz)) (union : dom) (union_stereo : bool) (master : siz) (kw : kwargs) : res (list (Q * Q) * cells) :=
    if negb ((1 <? n_domains)%nat && (1 <? n_sizes)%nat) then Raise AssertionError
    else if negb (n_domains =? n_sizes)%nat then Raise AssertionError
    else if negb ok then Raise ValueError
    else
      let! _ := parse_kwargs kw in
      let! r := build_nests nests kw 9999 [] in
      let '(gm, ps) := r in
      match ps with
      | [] => Raise ValueError
      | _ =>
          let k1 := pop "max_iter" kw in
          let k2 := if union_stereo then assign "stereo" (VBool true) k1 else k1 in
          let bmi := match lookup "blend_max_iter" kw with Some v => v | None => VNum 20 end in
          let! k := call_with ["domain"; "edge_length"]%string [("min_edge_length"%string, VNum gm); ("points"%string, VPoints (List.concat ps)); ("max_iter"%string, bmi); ("lock_boundary"%string, VBool true)] k2 in
          gen union master k
      end.
End Multi.

(** mesh_generator.py:540-562 _sanitize_smoothed_sizing_grid for a Grid (masked arrays not modelled). *)
Definition sanitize (g : grid) : res grid :=
  let fallback := let! h := py_min (positive_finite (g_values g)) in Ok (set_hmin g (Some (Fin h))) in
  match g_hmin g with
  | Some (Fin h) => if negb (Qle_bool h 0) then Ok g else fallback
  | _ => fallback
  end.
