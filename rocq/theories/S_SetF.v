(** Specification vocabulary for set operations on doubles: membership by logic instead of minima and maxima. *)
From Coq Require Import List ZArith SpecFloat.
From Verif Require Import M_FixMesh M_QualF M_SetF.
Import ListNotations.

(** A double that is not nan; infinities are allowed. *)
Definition number (x : spec_float) : Prop := valid_binary 53 1024 x = true /\ x <> S754_nan.
(** What np.minimum and np.maximum may be: nan for a nan, otherwise one of the two that bounds both. *)
Definition min_contract (mn : spec_float -> spec_float -> spec_float) : Prop := forall a b,
  (a = S754_nan \/ b = S754_nan -> mn a b = S754_nan) /\
  (number a -> number b -> (mn a b = a \/ mn a b = b) /\ SFleb (mn a b) a = true /\ SFleb (mn a b) b = true).
Definition max_contract (mx : spec_float -> spec_float -> spec_float) : Prop := forall a b,
  (a = S754_nan \/ b = S754_nan -> mx a b = S754_nan) /\
  (number a -> number b -> (mx a b = a \/ mx a b = b) /\ SFleb a (mx a b) = true /\ SFleb b (mx a b) = true).
Section Over.
Context {A : Type} (P : A -> Prop).
Fixpoint some (l : list A) : Prop := match l with [] => False | a :: r => P a \/ some r end.
Fixpoint every (l : list A) : Prop := match l with [] => True | a :: r => P a /\ every r end.
End Over.
(** Membership at the threshold g: [within] for value < g, its counterpart [off] for - value < g. *)
Fixpoint member (out : bool) (g : spec_float) (x : fpt) (d : dom) : Prop :=
  match d with
  | Plain None => False
  | Plain (Some f) => SFltb (if out then SFopp (f x) else f x) g = true
  | UnionD l => if out then every (member true g x) l else some (member false g x) l
  | IntersectionD l => if out then some (member true g x) l else every (member false g x) l
  | DifferenceD [] => False
  | DifferenceD (a :: l) => if out then member true g x a \/ some (member false g x) l else member false g x a /\ every (member true g x) l
  end.
Definition within := member false.
Definition off := member true.
(** Every list has an element and every domain a function ... *)
Fixpoint complete (d : dom) : Prop :=
  match d with Plain f => f <> None | UnionD l | IntersectionD l | DifferenceD l => l <> [] /\ every complete l end.
(** ... whose value at x is a number; or one of them is nan. *)
Fixpoint numbers (x : fpt) (d : dom) : Prop :=
  match d with Plain None => False | Plain (Some f) => number (f x) | UnionD l | IntersectionD l | DifferenceD l => every (numbers x) l end.
Fixpoint some_nan (x : fpt) (d : dom) : Prop :=
  match d with Plain None => False | Plain (Some f) => f x = S754_nan | UnionD l | IntersectionD l | DifferenceD l => some (some_nan x) l end.
(** Domains of a multiscale mesh: each with a covering, and the values at x are numbers. *)
Definition ready (x : fpt) (s : dom * option (fpt -> spec_float)) : Prop := complete (fst s) /\ numbers x (fst s) /\ exists c, snd s = Some c /\ number (c x).
(** Outside the covering; and inside a domain and outside the coverings of all later ones. *)
Definition clear (g : spec_float) (x : fpt) (t : dom * option (fpt -> spec_float)) : Prop := exists c, snd t = Some c /\ SFltb (SFopp (c x)) g = true.
Definition owned (g : spec_float) (x : fpt) (l : list (dom * option (fpt -> spec_float))) : Prop := exists l1 s l2, l = l1 ++ s :: l2 /\ within g x (fst s) /\ Forall (clear g x) l2.
