(** Property theorems C35 and C70 (mesh_generator.py:_compute_forces), over the real numbers. *)
From Coq Require Import List Arith Reals Lra Lia.
From Verif Require Import M_Base M_Edges M_Forces S_Forces P_Forces.
Import ListNotations.
Open Scope R_scope.

(** C35.  Each side of the triangulation pushes its two ends apart along the bar, or does nothing when it
    is at least as long as wanted: the force on point i is the sum over the bars at i of a non-negative
    weight times the vector from the other end.  [s] is the common scale (median length over median size). *)
Theorem C35_forces_repulsive : forall fh RR eps L0mult stereo, 0 < eps -> forall p t F,
  compute_forces fh RR eps L0mult stereo p t = Ok F ->
  length F = length p /\
  exists bars w size s, NoDup bars /\ (forall a b, In (a, b) bars <-> (a <= b)%nat /\ undirected_side t a b) /\
    0 < s /\ (exists mL mh, is_median (map (length_or eps p) bars) mL /\ is_median (map size bars) mh /\ s = mL / mh) /\
    (forall e, In e bars -> 0 < size e) /\
    (forall e, 0 <= w e) /\
    (forall e, 0 < distance p e -> w e = Rmax 0 (size e * L0mult * s - distance p e) / distance p e) /\
    (stereo = false -> forall g, (forall q, fh q = Ok (map g q)) ->
       forall a b x, In (a, b) bars -> g ((px p a + px p b) / 2, (py p a + py p b) / 2) = Some x -> 0 < x -> size (a, b) = x) /\
    (stereo = false -> forall g, (forall q, fh q = Ok (map g q)) ->
      forall a b, In (a, b) bars -> (forall x, g ((px p a + px p b) / 2, (py p a + py p b) / 2) = Some x -> x <= 0) ->
      is_median (positive_sizes (fun e => g ((px p (fst e) + px p (snd e)) / 2, (py p (fst e) + py p (snd e)) / 2)) bars) (size (a, b))) /\
    forall i, (i < length p)%nat -> nth i F (0, 0) =
      (sum_over (fun e => w e * (incidence i e * (px p (fst e) - px p (snd e)))) bars,
       sum_over (fun e => w e * (incidence i e * (py p (fst e) - py p (snd e)))) bars).
Proof. exact forces_explained. Qed.
Print Assumptions C35_forces_repulsive.

(** The forces add up to zero, and so do their moments. *)
Theorem C35_forces_balance : forall fh RR eps L0mult stereo, 0 < eps -> forall p t F,
  compute_forces fh RR eps L0mult stereo p t = Ok F ->
  sum_over fst F = 0 /\ sum_over snd F = 0 /\
  sum_over (fun i => px p i * snd (nth i F (0, 0)) - py p i * fst (nth i F (0, 0))) (seq 0 (length p)) = 0.
Proof. exact forces_balance. Qed.
Print Assumptions C35_forces_balance.

(** A result whenever some size is positive and finite, ValueError otherwise. *)
Theorem C35_forces_returns : forall fh RR eps L0mult stereo p t h0,
  (forall a b, undirected_side t a b -> (a < length p)%nat /\ (b < length p)%nat) ->
  bar_sizes fh RR stereo p (get_bars t) = Ok h0 -> length h0 = length (get_bars t) ->
  ((exists F, compute_forces fh RR eps L0mult stereo p t = Ok F) <-> exists x, In (Some x) h0 /\ 0 < x) /\
  (compute_forces fh RR eps L0mult stereo p t = Raise ValueError <-> forall x, In (Some x) h0 -> x <= 0).
Proof. exact forces_returns. Qed.
Print Assumptions C35_forces_returns.

(** One triangle; the size is nan at one bar, 2 elsewhere. *)
Example C35_case : let p := [(0, 0); (3, 0); (0, 4)] in let t := [(0, 1, 2)%nat] in
  let fh := fun q : list (R * R) => Ok (map (fun x => if Req_EM_T (snd x) 0 then None else Some 2) q) in
  get_bars t = [(0, 1); (0, 2); (1, 2)]%nat /\
  exists F, compute_forces fh 1 (1 / 10) (6 / 5) false p t = Ok F.
Proof.
  intros p t fh. assert (Hb : get_bars t = [(0, 1); (0, 2); (1, 2)]%nat) by reflexivity. split; [exact Hb|].
  apply (forces_returns fh 1 (1 / 10) (6 / 5) false p t [None; Some 2; Some 2]).
  - intros a b [(x & y & z & [E|[]] & H)|(x & y & z & [E|[]] & H)]; injection E as <- <- <-; simpl; lia.
  - rewrite Hb. unfold bar_sizes, fh, midpoint. simpl.
    repeat match goal with |- context [Req_EM_T ?a ?b] => destruct (Req_EM_T a b); try lra end. reflexivity.
  - rewrite Hb. reflexivity.
  - exists 2. split; [simpl; auto|lra].
Qed.

(** C70.  Only relative sizes matter: multiplying the sizing function by a positive constant changes no force. *)
Theorem C70_forces_scale_free : forall fh fh' RR eps L0mult stereo c p t, 0 < eps -> 0 < c ->
  (forall q, fh' q = match fh q with Ok h => Ok (map (hscale c) h) | Raise e => Raise e | OutOfFuel => OutOfFuel end) ->
  compute_forces fh' RR eps L0mult stereo p t = compute_forces fh RR eps L0mult stereo p t.
Proof. exact forces_scale. Qed.
Print Assumptions C70_forces_scale_free.
Example C70_case : let fh := fun q : list (R * R) => Ok (map (fun x => Some (1 + fst x)) q) in
  let fh' := fun q : list (R * R) => Ok (map (fun x => Some (100 * (1 + fst x))) q) in
  compute_forces fh' 1 (1 / 10) (6 / 5) false [(0, 0); (3, 0); (0, 4)] [(0, 1, 2)%nat] =
  compute_forces fh 1 (1 / 10) (6 / 5) false [(0, 0); (3, 0); (0, 4)] [(0, 1, 2)%nat].
Proof.
  intros fh fh'. apply (forces_scale fh fh' 1 (1 / 10) (6 / 5) false 100); try lra.
  intros q. unfold fh, fh'. f_equal. rewrite map_map. reflexivity.
Qed.
