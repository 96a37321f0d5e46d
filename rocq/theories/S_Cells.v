(** An exact polygon engine to show that the contracts can be met: polygons are finite sets of unit cells. *)
From Coq Require Import List Arith Bool ZArith QArith Qround.
From Verif Require Import M_Base M_Shore S_Shore M_Clip.
Import ListNotations.
Open Scope nat_scope.

Definition cell : Type := (Z * Z)%type.
Definition cell_eqb (a b : cell) : bool := ((fst a =? fst b) && (snd a =? snd b))%Z.
Definition has (a : list cell) (x : cell) : bool := existsb (cell_eqb x) a.
Definition zrange (lo hi : Z) : list Z := map (fun i => (lo + Z.of_nat i)%Z) (seq 0 (Z.to_nat (hi - lo))).
Definition cells_make (pts : list point) : res (list cell) :=
  match pts with
  | [] => Raise ValueError
  | _ => Ok (flat_map (fun i => map (fun j => (i, j)) (zrange (Qceiling (minQ (map snd pts))) (Qfloor (maxQ (map snd pts)))))
                      (zrange (Qceiling (minQ (map fst pts))) (Qfloor (maxQ (map fst pts)))))
  end.
Definition nonempty (a : list cell) : bool := match a with [] => false | _ => true end.
Definition cells_contains (a b : list cell) : bool := nonempty b && forallb (has a) b.
Definition cells_overlaps (a b : list cell) : bool := existsb (has b) a && existsb (fun x => negb (has b x)) a && existsb (fun x => negb (has a x)) b.
Definition cells_difference (a b : list cell) : list cell := filter (fun x => negb (has b x)) a.
Definition cell_ring (c : cell) : list point :=
  let x := inject_Z (fst c) in let y := inject_Z (snd c) in [(x, y); (x + 1, y); (x + 1, y + 1); (x, y + 1); (x, y)]%Q.
Definition cells_intersection (a b : list cell) : list (option (list point)) := map (fun c => Some (cell_ring c)) (filter (has b) a).
Definition cells_area (a : list cell) : Q := inject_Z (Z.of_nat (length a)).
Definition cells_exteriors (a : list cell) : list (list point) := map cell_ring a.
Definition sq (x0 y0 x1 y1 : Q) : list point := [(x0, y0); (x1, y0); (x1, y1); (x0, y1); (x0, y0)].
Definition cells_build (bbox : box4) (h0 mult : Q) (polys : list row) :=
  build (list cell) cells_make (fun _ => true) (fun g => [g]) cells_contains cells_overlaps cells_intersection cells_difference cells_area cells_exteriors cells_area
    bbox [] h0 1 mult false false (Ok polys) (fun _ rows => map (fun _ => false) rows) (fun _ rows => map (fun _ => false) rows).
Definition cells_classify (bbox : box4) (polys : list row) (h0 mult : Q) :=
  classify_shoreline (list cell) cells_make cells_contains cells_overlaps cells_difference cells_area cells_exteriors cells_area bbox [] polys h0 mult false (fun rows => map (fun _ => false) rows).
