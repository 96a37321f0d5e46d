(** Model of unions, intersections and differences of domains (oceanmesh/signed_distance_function.py:134-184, 287-328) on IEEE doubles
    at one query point; M_Sdf has the arrays, in exact arithmetic. *)
From Coq Require Import List Arith Bool ZArith SpecFloat.
From Verif Require Import M_Base M_FixMesh M_QualF.
Import ListNotations.

(** signed_distance_function.py:118-131, 146-184: a Domain with its function (None when it has no covering, line 318), or one of the
    combinations with its list of domains. *)
Inductive dom : Type :=
  | Plain (f : option (fpt -> spec_float))
  | UnionD (l : list dom)
  | IntersectionD (l : list dom)
  | DifferenceD (l : list dom).
(** [f(d) for d in l], up to the first exception (lines 156, 169, 183); as M_Base.mapM. *)
Section Each.
Context {A B : Type} (f : A -> res B).
Fixpoint each (l : list A) : res (list B) :=
  match l with [] => Ok [] | a :: r => let! b := f a in let! bs := each r in Ok (b :: bs) end.
End Each.
Section Reduce.
(** np.minimum and np.maximum; which zero they return for zeros of either sign is open. *)
Variables np_min np_max : spec_float -> spec_float -> spec_float.
(** np.minimum.reduce and np.maximum.reduce over a list (lines 157, 170, 182-184): ValueError when empty. *)
Definition reduce_f (op : spec_float -> spec_float -> spec_float) (l : list spec_float) : res spec_float :=
  match l with [] => Raise ValueError | a :: r => Ok (fold_left op r a) end.
(** Lines 182-184: all but the first are negated. *)
Definition negate_rest (l : list spec_float) : list spec_float := match l with [] => [] | a :: r => a :: map SFopp r end.
(** Lines 126-127, 155-157, 168-170, 181-184: the methods eval; calling None is a TypeError. *)
Fixpoint eval_f (x : fpt) (d : dom) : res spec_float :=
  match d with
  | Plain None => Raise TypeError
  | Plain (Some f) => Ok (f x)
  | UnionD l => let! v := each (eval_f x) l in reduce_f np_min v
  | IntersectionD l => let! v := each (eval_f x) l in reduce_f np_max v
  | DifferenceD l => let! v := each (eval_f x) l in reduce_f np_max (negate_rest v)
  end.
End Reduce.
(** Lines 309-325 of multiscale_signed_distance_function: each domain without the coverings of the later ones.  A domain is given by
    its function and its covering. *)
Fixpoint nests_f (l : list (dom * option (fpt -> spec_float))) : list dom :=
  match l with
  | [] => []
  | s :: rest => DifferenceD (fst s :: map (fun t => Plain (snd t)) rest) :: nests_f rest
  end.
(** Lines 303-328: the union of the nests; AssertionError for fewer than two domains. *)
Definition multiscale_f (l : list (dom * option (fpt -> spec_float))) : res (dom * list dom) :=
  if Nat.ltb 1 (length l) then Ok (UnionD (nests_f l), nests_f l) else Raise AssertionError.
(** Python's min and max of floats (lines 136-139): the first one kept until a later one is less or greater. *)
Definition py_min_f (l : list spec_float) : res spec_float :=
  match l with [] => Raise ValueError | a :: r => Ok (fold_left (fun m y => if SFltb y m then y else m) r a) end.
Definition py_max_f (l : list spec_float) : res spec_float :=
  match l with [] => Raise ValueError | a :: r => Ok (fold_left (fun m y => if SFltb m y then y else m) r a) end.
