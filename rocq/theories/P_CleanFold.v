(** A mesh that smoothing folds onto itself: mesh_clean returns a boundary that is not traversable (for C56). *)
From Coq Require Import List Arith Bool ZArith QArith Qabs Lia Lqa.
From Verif Require Import M_Base M_Numpy M_Edges M_FixMesh M_Adjacency M_Clean.
From Verif Require Import S_Edges S_FixMesh S_Adjacency S_Clean.
Import ListNotations.
Open Scope nat_scope.

(** Vertices 2 and 3 lie on both sides of the side 0-1 and have the same mean of neighbours. *)
Definition fold_p : list (Q * Q) := [(0, 0); (0, 10); (-3 # 1, 5); (1, 5); (6, 25); (-6 # 1, 5); (6, -15 # 1); (1, 12); (4, 5); (1, -2 # 1)]%Q.
Definition fold_t : list (nat * nat * nat) :=
  [(2, 0, 1); (2, 1, 4); (2, 4, 5); (2, 5, 6); (2, 6, 0); (3, 1, 0); (3, 0, 9); (3, 9, 8); (3, 8, 7); (3, 7, 1); (1, 7, 4)].
(** simp_qual (fix_mesh.py:6-31) with 1.732 for the root of 3. *)
Definition fold_q (p : list (Q * Q)) (t : nat * nat * nat) : option Q :=
  let '(a, b, c) := t in
  let q i := nth i p (0, 0)%Q in
  let d i j := ((fst (q i) - fst (q j)) ^ 2 + (snd (q i) - snd (q j)) ^ 2)%Q in
  Some ((3464 # 1000) * Qred (area2 p t / (d a b + d b c + d a c)))%Q.
Ltac ten u tac := do 10 (destruct u as [|u]; [tac|]).
Lemma fold_manifold : manifold fold_t.
Proof. intros u v. ten u ltac:(ten v ltac:(cbv; lia); cbv; lia). cbv. lia. Qed.
Lemma fold_traversable : traversable fold_t.
Proof. intros v. ten v ltac:(vm_compute; tauto). left. vm_compute. reflexivity. Qed.
Lemma fold_separated : separated ptol_default fold_p.
Proof.
  exists 100%Q. split.
  - intros a b Ha Hb. cbn in Ha, Hb. repeat destruct Ha as [<-|Ha]; try destruct Ha; repeat destruct Hb as [<-|Hb]; try destruct Hb; cbn; split; lra.
  - unfold no_two, fold_p. repeat match goal with
    | |- ForallOrdPairs _ [] => constructor
    | |- ForallOrdPairs _ (_ :: _) => constructor
    | |- Forall _ [] => constructor
    | |- Forall _ (_ :: _) => constructor; [intros [A B]; vm_compute in A, B; first [now apply A|now apply B]|]
    end.
Qed.
Lemma clean_folds : exists p ts p' t' v,
  Forall (in_range (length p)) ts /\ separated ptol_default p /\ manifold ts /\ Forall nondegenerate ts /\ traversable ts /\
  Forall (fun t => (0 < area2 p t)%Q /\ exists q, fold_q p t = Some q /\ (1 # 100 < q)%Q) ts /\
  mesh_clean stable_argsort zedge_leb fold_q (fun _ _ _ => 0) (fun _ _ _ => 0) (fun _ _ => false) (1 # 100) (1 # 20) 1 None p ts = Ok (p', t') /\
  boundary_degree t' v = 3.
Proof.
  exists fold_p, fold_t. eexists. eexists. exists 1.
  split. { repeat (constructor; [repeat (constructor; [cbn; lia|]); constructor|]). constructor. }
  split; [exact fold_separated|]. split; [exact fold_manifold|].
  split. { repeat (constructor; [cbn; lia|]). constructor. }
  split; [exact fold_traversable|].
  split. { repeat (constructor; [split; [vm_compute; reflexivity|eexists; split; [reflexivity|vm_compute; reflexivity]]|]). constructor. }
  split; vm_compute; reflexivity.
Qed.
