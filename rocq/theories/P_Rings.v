(** Proofs about rings of edges and the backends of the point-in-polygon test. *)
From Coq Require Import String List Arith Bool ZArith QArith Permutation Lia Lqa.
From Verif Require Import M_Base M_Sdf M_Inpoly S_Sdf P_Sdf S_Inpoly P_Inpoly M_Rings S_Rings.
Import ListNotations.
Open Scope nat_scope.

(** * Neighbours *)
Definition nbrs1 (e : nat * nat) (v : nat) : list nat :=
  (if fst e =? v then [snd e] else []) ++ (if snd e =? v then [fst e] else []).
Definition nbrs (E : list (nat * nat)) (v : nat) : list nat := flat_map (fun e => nbrs1 e v) E.
Notation cnt := (count_occ Nat.eq_dec).

Lemma nbrs_app E F v : nbrs (E ++ F) v = nbrs E v ++ nbrs F v.
Proof. apply flat_map_app. Qed.
Lemma cnt1_sym e v w : cnt (nbrs1 e v) w = cnt (nbrs1 e w) v.
Proof.
  destruct e as [a b]. unfold nbrs1. cbn [fst snd]. rewrite !count_occ_app.
  destruct (Nat.eqb_spec a v), (Nat.eqb_spec b v), (Nat.eqb_spec a w), (Nat.eqb_spec b w); subst; cbn;
    repeat (match goal with |- context [Nat.eq_dec ?x ?y] => destruct (Nat.eq_dec x y) end); subst; try congruence; reflexivity.
Qed.
Lemma cnt_sym E v w : cnt (nbrs E v) w = cnt (nbrs E w) v.
Proof. induction E as [|e E IH]; [reflexivity|]. cbn. rewrite !count_occ_app. rewrite cnt1_sym. fold (nbrs E v) (nbrs E w). lia. Qed.
Lemma cnt_self E v : Nat.even (cnt (nbrs E v) v) = true.
Proof.
  induction E as [|[a b] E IH]; [reflexivity|]. cbn [nbrs flat_map]. fold (nbrs E v). rewrite count_occ_app, Nat.even_add, IH.
  unfold nbrs1; cbn [fst snd]. destruct (Nat.eqb_spec a v), (Nat.eqb_spec b v); subst; cbn;
    repeat (match goal with |- context [Nat.eq_dec ?x ?y] => destruct (Nat.eq_dec x y) end); subst; try congruence; reflexivity.
Qed.
Lemma nbrs_In E v w : In w (nbrs E v) <-> In v (nbrs E w).
Proof. rewrite !(count_occ_In Nat.eq_dec), cnt_sym. reflexivity. Qed.
Lemma nbrs_end E v : nbrs E v <> [] <-> In v (end_list E).
Proof.
  induction E as [|[a b] E IH]; [cbn; tauto|]. cbn [nbrs flat_map end_list]. fold (nbrs E v) (end_list E). unfold nbrs1. cbn [fst snd app In].
  destruct (Nat.eqb_spec a v), (Nat.eqb_spec b v); subst; cbn; [| | |rewrite IH; tauto]; (split; [tauto|intros _; discriminate]).
Qed.
Lemma nbrs_ends E v w : In w (nbrs E v) -> In w (end_list E).
Proof. intros H. apply nbrs_In in H. apply nbrs_end. intros N. rewrite N in H. destruct H. Qed.
Lemma nbrs_len E v : length (nbrs E v) = degree E v.
Proof.
  unfold degree. induction E as [|[a b] E IH]; [reflexivity|]. cbn [nbrs flat_map end_list]. fold (nbrs E v) (end_list E). rewrite app_length, IH.
  cbn [fst snd app]. unfold nbrs1; cbn [fst snd].
  destruct (Nat.eqb_spec a v), (Nat.eqb_spec b v); cbn;
    repeat (match goal with |- context [Nat.eq_dec ?x ?y] => destruct (Nat.eq_dec x y) end); subst; try congruence; reflexivity.
Qed.

(** * The dictionary *)
Lemma lookup_append d u v w : lookup_key (append_to d u v) w = lookup_key d w ++ (if u =? w then [v] else []).
Proof.
  induction d as [|[k l] d IH]; cbn; [reflexivity|]. destruct (Nat.eqb_spec k u); cbn.
  - destruct (Nat.eqb_spec k w), (Nat.eqb_spec u w); subst; try congruence; rewrite ?app_nil_r; reflexivity.
  - destruct (Nat.eqb_spec k w); [|apply IH]. destruct (Nat.eqb_spec u w); subst; [congruence|]. rewrite app_nil_r. reflexivity.
Qed.
Definition add_edge (d : dict) (e : nat * nat) : dict := append_to (append_to d (fst e) (snd e)) (snd e) (fst e).
Lemma lookup_fold E : forall d v, lookup_key (fold_left add_edge E d) v = lookup_key d v ++ nbrs E v.
Proof.
  induction E as [|[a b] E IH]; intros d v; cbn [fold_left nbrs flat_map]; [symmetry; apply app_nil_r|]. rewrite IH. unfold add_edge. rewrite !lookup_append.
  fold (nbrs E v). unfold nbrs1. rewrite <- !app_assoc. reflexivity.
Qed.
Lemma lookup_adj E v : lookup_key (adjacency E) v = nbrs E v.
Proof. apply (lookup_fold E []). Qed.
Lemma keys_append d u v : map fst (append_to d u v) = if existsb (Nat.eqb u) (map fst d) then map fst d else map fst d ++ [u].
Proof.
  induction d as [|[k l] d IH]; [reflexivity|]. cbn. rewrite (Nat.eqb_sym u k). destruct (Nat.eqb_spec k u); cbn; [reflexivity|]. rewrite IH. destruct (existsb _ _); reflexivity.
Qed.
Lemma existsb_eq u l : existsb (Nat.eqb u) l = true <-> In u l.
Proof. rewrite existsb_exists. split; [intros (x & H & E); apply Nat.eqb_eq in E; subst; exact H|intros H; exists u; split; [exact H|apply Nat.eqb_refl]]. Qed.
Lemma keys_append_In d u v w : In w (map fst (append_to d u v)) <-> In w (map fst d) \/ w = u.
Proof.
  rewrite keys_append. destruct (existsb (Nat.eqb u) (map fst d)) eqn:X.
  - apply existsb_eq in X. split; [tauto|intros [H| ->]; assumption].
  - rewrite in_app_iff. cbn. split; intros [H|H]; try tauto; [destruct H as [->|[]]; tauto|right; left; congruence].
Qed.
Lemma keys_append_NoDup d u v : NoDup (map fst d) -> NoDup (map fst (append_to d u v)).
Proof.
  intros N. rewrite keys_append. destruct (existsb (Nat.eqb u) (map fst d)) eqn:X; [exact N|].
  apply (Permutation_NoDup (l := u :: map fst d)); [apply Permutation_cons_append|]. constructor; [|exact N].
  intros H. apply existsb_eq in H. congruence.
Qed.
Lemma keys_fold E : forall d, (NoDup (map fst d) -> NoDup (map fst (fold_left add_edge E d))) /\
  forall w, In w (map fst (fold_left add_edge E d)) <-> In w (map fst d) \/ In w (end_list E).
Proof.
  induction E as [|[a b] E IH]; intros d; cbn [fold_left]; [split; [tauto|cbn; tauto]|]. destruct (IH (add_edge d (a, b))) as (N & I). split.
  - intros H. apply N. apply keys_append_NoDup, keys_append_NoDup, H.
  - intros w. rewrite I. unfold add_edge; cbn [fst snd]. rewrite !keys_append_In. cbn [end_list flat_map fst snd app In]. fold (end_list E). intuition congruence.
Qed.
Lemma keys_adj E : NoDup (map fst (adjacency E)) /\ forall w, In w (map fst (adjacency E)) <-> In w (end_list E).
Proof. destruct (keys_fold E []) as (N & I). split; [apply N; constructor|]. intros w. change (adjacency E) with (fold_left add_edge E []). rewrite I. cbn; tauto. Qed.
Lemma first_key e E : exists t, map fst (adjacency (e :: E)) = fst e :: t.
Proof.
  change (adjacency (e :: E)) with (fold_left add_edge E (add_edge [] e)).
  assert (H : exists t, map fst (add_edge [] e) = fst e :: t) by (unfold add_edge; rewrite keys_append; cbn; destruct (_ || _); eexists; reflexivity).
  revert H. generalize (add_edge [] e). induction E as [|f E IH]; intros d H; [exact H|]. cbn [fold_left]. apply IH.
  destruct H as (t & H). unfold add_edge. rewrite !keys_append, H. repeat (destruct (existsb _ _); cbn [app]); eexists; reflexivity.
Qed.
Lemma lookup_pair d k l : NoDup (map fst d) -> In (k, l) d -> lookup_key d k = l.
Proof.
  induction d as [|[k' l'] d IH]; cbn; [tauto|]. intros N [H|H].
  - injection H as -> ->. rewrite Nat.eqb_refl. reflexivity.
  - inversion N as [|x y Hx Hy]; subst. destruct (Nat.eqb_spec k' k); [|apply IH; assumption]. subst. destruct Hx. apply (in_map fst) in H. exact H.
Qed.

(** * The walk *)
Section Walk.
  Variable E : list (nat * nat).
  Hypothesis deg : forall v, In v (end_list E) -> length (nbrs E v) = 2.
  Notation adj := (adjacency E).
  (** Q: the pairs run through so far.  Saturated vertices have all their edges in Q. *)
  Definition full (Q : list (nat * nat)) (v : nat) : Prop := Permutation (nbrs E v) (nbrs Q v).
  Lemma full_fresh Q v w : full Q v -> cnt (nbrs E w) v = cnt (nbrs Q w) v.
  Proof. intros F. rewrite cnt_sym, (cnt_sym Q). apply Permutation_count_occ, F. Qed.
  Lemma nbrs_none Q v : ~ In v (end_list Q) -> nbrs Q v = [].
  Proof. intros H. destruct (nbrs Q v) eqn:X; [reflexivity|]. exfalso. apply H, nbrs_end. rewrite X. discriminate. Qed.
  Lemma nbrs_last Q a b v : nbrs (Q ++ [(a, b)]) v = nbrs Q v ++ (if a =? v then [b] else []) ++ (if b =? v then [a] else []).
  Proof. rewrite nbrs_app. cbn. rewrite app_nil_r. reflexivity. Qed.
  Lemma cnt_last l x y : cnt (l ++ [x]) y = cnt l y + (if x =? y then 1 else 0).
  Proof. rewrite count_occ_app. cbn. destruct (Nat.eq_dec x y), (Nat.eqb_spec x y); congruence || reflexivity. Qed.
  Definition last_pair (prev : option nat) (current : nat) : list (nat * nat) := match prev with Some p => [(p, current)] | None => [] end.

  (** State before [current] is appended: [Q] includes the pair that leads to it. *)
  Record state (Q : list (nat * nat)) (start : nat) (prev : option nat) (current : nat) (ring visited : list nat) : Prop := {
    st_nodup : NoDup (visited ++ [current]);
    st_ring : forall v, In v ring -> In v visited;
    st_ends : forall v, In v (end_list Q) -> In v (visited ++ [current]);
    st_keys : forall v, In v (visited ++ [current]) -> In v (end_list E);
    st_full : forall v, In v visited -> v <> start -> full Q v;
    st_prev : match prev with
              | None => ring = [] /\ start = current /\ nbrs Q current = []
              | Some p => nbrs Q current = [p] /\ In start ring /\ start <> current /\ In current (nbrs E p) /\
                          exists z, Permutation (nbrs E start) (nbrs Q start ++ [z])
              end
  }.
  Lemma two v : In v (end_list E) -> exists a b, nbrs E v = [a; b].
  Proof. intros H. apply deg in H. destruct (nbrs E v) as [|a [|b [|c l]]]; try discriminate. exists a, b. reflexivity. Qed.
  Lemma other_nbr v p a b : nbrs E v = [a; b] -> In p (nbrs E v) -> Permutation (nbrs E v) [p; if b =? p then a else b].
  Proof.
    intros H I. rewrite H in *. destruct (Nat.eqb_spec b p); subst; [apply perm_swap|]. destruct I as [->|[->|[]]]; [apply Permutation_refl|congruence].
  Qed.
  Lemma even_one n : Nat.even (n + 1) = negb (Nat.even n).
  Proof. rewrite Nat.add_1_r, Nat.even_succ, <- Nat.negb_even. reflexivity. Qed.

  Lemma state_room Q start prev current ring visited : state Q start prev current ring visited -> length visited < length adj.
  Proof.
    intros S. destruct (keys_adj E) as (_ & K). pose proof (NoDup_incl_length (l' := map fst adj) (st_nodup _ _ _ _ _ _ S)) as L.
    rewrite app_length, map_length in L. cbn in L. apply (Nat.lt_le_trans _ (length visited + 1)); [lia|].
    apply L. intros v H. apply K. apply (st_keys _ _ _ _ _ _ S v H).
  Qed.
  (** The next vertex: Q's pairs at current plus one more. *)
  Lemma next_spec Q start prev current ring visited : state Q start prev current ring visited ->
    exists a b n : nat, nbrs E current = [a; b] /\
      match prev with None => n = a | Some p => n = if b =? p then a else b end /\
      match prev with None => Permutation (nbrs E current) [n; b] | Some _ => Permutation (nbrs E current) (nbrs Q current ++ [n]) end.
  Proof.
    intros S. destruct (two current) as (a & b & H); [apply (st_keys _ _ _ _ _ _ S), in_elt|]. exists a, b.
    destruct prev as [p|].
    - exists (if b =? p then a else b). split; [exact H|]. split; [reflexivity|]. destruct (st_prev _ _ _ _ _ _ S) as (-> & _ & _ & I & _).
      apply other_nbr; [exact H|]. apply nbrs_In, I.
    - exists a. split; [exact H|]. split; [reflexivity|]. rewrite H. apply Permutation_refl.
  Qed.
  Lemma next_fresh Q start prev current ring visited a b n : state Q start prev current ring visited -> nbrs E current = [a; b] ->
    match prev with None => n = a | Some p => n = if b =? p then a else b end ->
    match prev with None => Permutation (nbrs E current) [n; b] | Some _ => Permutation (nbrs E current) (nbrs Q current ++ [n]) end ->
    n <> start -> ~ In n (visited ++ [current]).
  Proof.
    intros S H Hn HP N I. assert (C : cnt (nbrs E current) n > cnt (nbrs Q current) n).
    { destruct prev as [p|].
      - rewrite (proj1 (Permutation_count_occ Nat.eq_dec _ _) HP n), cnt_last, Nat.eqb_refl. lia.
      - destruct (st_prev _ _ _ _ _ _ S) as (_ & _ & ->). rewrite H. subst n. cbn. destruct (Nat.eq_dec a a); [lia|congruence]. }
    apply in_app_iff in I. destruct I as [I|[<-|[]]].
    - pose proof (full_fresh Q n current (st_full _ _ _ _ _ _ S n I N)). lia.
    - destruct prev as [p|]; [|destruct (st_prev _ _ _ _ _ _ S) as (_ & X & _); congruence].
      pose proof (cnt_self E current) as E1. rewrite (proj1 (Permutation_count_occ Nat.eq_dec _ _) HP current), cnt_last, Nat.eqb_refl, even_one, cnt_self in E1. discriminate.
  Qed.
  Lemma state_next Q start prev current ring visited a b n : state Q start prev current ring visited -> nbrs E current = [a; b] ->
    match prev with None => n = a | Some p => n = if b =? p then a else b end ->
    match prev with None => Permutation (nbrs E current) [n; b] | Some _ => Permutation (nbrs E current) (nbrs Q current ++ [n]) end ->
    n <> start -> state (Q ++ [(current, n)]) start (Some current) n (ring ++ [current]) (visited ++ [current]).
  Proof.
    intros S H Hn HP N. pose proof (next_fresh _ _ _ _ _ _ _ _ _ S H Hn HP N) as F.
    assert (In_n : In n (nbrs E current)) by (destruct prev; rewrite HP; [apply in_elt|left; reflexivity]).
    assert (Nc : n <> current) by (intros ->; apply F, in_elt).
    assert (Qn : nbrs Q n = []) by (apply nbrs_none; intros X; apply F, (st_ends _ _ _ _ _ _ S), X).
    constructor.
    - apply (Permutation_NoDup (l := n :: visited ++ [current])); [apply Permutation_cons_append|]. constructor; [exact F|apply (st_nodup _ _ _ _ _ _ S)].
    - intros v X. apply in_app_iff in X. apply in_app_iff. destruct X as [X|X]; [left; apply (st_ring _ _ _ _ _ _ S), X|right; exact X].
    - intros v X. unfold end_list in X. rewrite flat_map_app in X. apply in_app_iff in X. apply in_app_iff. destruct X as [X|X].
      + left. apply (st_ends _ _ _ _ _ _ S), X.
      + cbn in X. destruct X as [<-|[<-|[]]]; [left; apply in_elt|right; left; reflexivity].
    - intros v X. apply in_app_iff in X. destruct X as [X|[<-|[]]]; [apply (st_keys _ _ _ _ _ _ S), X|]. apply nbrs_ends in In_n. exact In_n.
    - intros v X Y. unfold full. rewrite nbrs_last. apply in_app_iff in X.
      assert (Vn : n =? v = false) by (apply Nat.eqb_neq; intros ->; apply F, in_app_iff; tauto).
      rewrite Vn, app_nil_r. destruct (Nat.eqb_spec current v) as [->|D].
      + destruct prev as [p|]; [exact HP|]. destruct (st_prev _ _ _ _ _ _ S) as (_ & Z & _). congruence.
      + rewrite app_nil_r. destruct X as [X|[->|[]]]; [|congruence]. apply (st_full _ _ _ _ _ _ S); assumption.
    - rewrite !nbrs_last, Qn. assert (Cn : current =? n = false) by (apply Nat.eqb_neq; congruence). rewrite Cn, Nat.eqb_refl. cbn [app].
      split; [reflexivity|]. split; [|split; [congruence|split; [exact In_n|]]].
      + apply in_app_iff. destruct prev as [p|]; destruct (st_prev _ _ _ _ _ _ S) as (X & Y & Z); [left; tauto|right; left; congruence].
      + assert (Ns : n =? start = false) by (apply Nat.eqb_neq; congruence). rewrite Ns. destruct prev as [p|]; destruct (st_prev _ _ _ _ _ _ S) as (X & Y & Z).
        * destruct Z as (Z & _ & W). assert (Cs : current =? start = false) by (apply Nat.eqb_neq; congruence). rewrite Cs. cbn [app]. rewrite app_nil_r. exact W.
        * subst start. rewrite Nat.eqb_refl, Z. exists b. cbn. exact HP.
  Qed.
  Lemma state_end Q start prev current ring visited a b : state Q start prev current ring visited -> nbrs E current = [a; b] ->
    match prev with None => start = a | Some p => start = if b =? p then a else b end ->
    match prev with None => Permutation (nbrs E current) [start; b] | Some _ => Permutation (nbrs E current) (nbrs Q current ++ [start]) end ->
    forall v, In v (visited ++ [current]) -> full (Q ++ [(current, start)]) v.
  Proof.
    intros S H Hn HP v I. unfold full. rewrite nbrs_last. destruct prev as [p|].
    - destruct (st_prev _ _ _ _ _ _ S) as (X & Y & Z & W & z & V). assert (Cs : current =? start = false) by (apply Nat.eqb_neq; congruence).
      assert (Fc : Permutation (nbrs E current) (nbrs (Q ++ [(current, start)]) current)).
      { rewrite nbrs_last, Nat.eqb_refl. apply not_eq_sym in Z. apply Nat.eqb_neq in Cs. assert (Sc : start =? current = false) by (apply Nat.eqb_neq; congruence).
        rewrite Sc, app_nil_r. exact HP. }
      destruct (Nat.eq_dec v start) as [->|D].
      + rewrite Cs, Nat.eqb_refl. cbn [app]. replace current with z; [exact V|].
        pose proof (full_fresh (Q ++ [(current, start)]) current start Fc) as C. rewrite nbrs_last, Cs, Nat.eqb_refl in C. cbn [app] in C.
        rewrite (proj1 (Permutation_count_occ Nat.eq_dec _ _) V current) in C. rewrite !cnt_last, Nat.eqb_refl in C.
        destruct (Nat.eqb_spec z current); [assumption|lia].
      + assert (Sv : start =? v = false) by (apply Nat.eqb_neq; congruence). rewrite Sv, app_nil_r. destruct (Nat.eqb_spec current v) as [->|D'].
        * exact HP.
        * rewrite app_nil_r. apply in_app_iff in I. destruct I as [I|[->|[]]]; [|congruence]. apply (st_full _ _ _ _ _ _ S); assumption.
    - destruct (st_prev _ _ _ _ _ _ S) as (X & Y & Z). destruct (Nat.eqb_spec current v) as [->|D'].
      + subst start. rewrite Y, Nat.eqb_refl, Z. cbn [app]. rewrite Y in *. pose proof (cnt_self E v) as C.
        rewrite H in *. subst a. cbn in C. destruct (Nat.eq_dec v v); [|congruence]. destruct (Nat.eq_dec b v); [subst; apply Permutation_refl|discriminate].
      + assert (Sv : start =? v = false) by (apply Nat.eqb_neq; congruence). rewrite Sv, !app_nil_r. apply in_app_iff in I. destruct I as [I|[->|[]]]; [|congruence].
        apply (st_full _ _ _ _ _ _ S); congruence.
  Qed.
  Lemma walk_spec : forall fuel Q start prev current ring visited,
    state Q start prev current ring visited -> length visited + fuel > length adj ->
    exists s, walk fuel adj start prev current ring visited = Ok (ring ++ current :: s, visited ++ current :: s) /\
      NoDup (visited ++ current :: s) /\ (forall v, In v (visited ++ current :: s) -> In v (end_list E)) /\
      let Q' := Q ++ combine (current :: s) (s ++ [start]) in
      (forall v, In v (end_list Q') -> In v (visited ++ current :: s)) /\ (forall v, In v (visited ++ current :: s) -> full Q' v).
  Proof.
    induction fuel as [|fuel IH]; intros Q start prev current ring visited S L; [pose proof (state_room _ _ _ _ _ _ S); lia|].
    destruct (next_spec _ _ _ _ _ _ S) as (a & b & n & H & Hn & HP). cbn [walk]. rewrite lookup_adj, H. unfold get at 1. cbn [nth_error bind].
    assert (W : match prev with None => Ok a | Some p => let! b0 := get [a; b] 1 in Ok (if b0 =? p then a else b0) end = Ok n).
    { destruct prev; cbn; rewrite Hn; reflexivity. }
    rewrite W. cbn [bind]. destruct (Nat.eqb_spec n start) as [->|N].
    - exists []. split; [reflexivity|]. split; [apply (st_nodup _ _ _ _ _ _ S)|]. split; [apply (st_keys _ _ _ _ _ _ S)|]. cbn [combine app]. split.
      + intros v X. unfold end_list in X. rewrite flat_map_app in X. apply in_app_iff in X. destruct X as [X|X]; [apply (st_ends _ _ _ _ _ _ S), X|].
        cbn in X. destruct X as [<-|[<-|[]]]; [apply in_elt|]. destruct prev as [p|]; destruct (st_prev _ _ _ _ _ _ S) as (X & Y & Z).
        * apply in_app_iff. left. apply (st_ring _ _ _ _ _ _ S). tauto.
        * subst. apply in_elt.
      + apply (state_end _ _ _ _ _ _ a b S H Hn HP).
    - pose proof (state_next _ _ _ _ _ _ _ _ _ S H Hn HP N) as S'. destruct (IH _ _ _ _ _ _ S') as (s & E1 & E2 & E3 & E4 & E5); [rewrite app_length; cbn; lia|].
      exists (n :: s). rewrite E1, <- !app_assoc. cbn [app]. rewrite <- !app_assoc in E2, E3, E4, E5. cbn [app combine] in E2, E3, E4, E5 |- *. rewrite <- app_assoc in E4, E5.
      auto.
  Qed.
End Walk.

(** * All rings *)
Lemma pair_dec (x y : nat * nat) : {x = y} + {x <> y}.
Proof. decide equality; apply Nat.eq_dec. Defined.
Lemma undirected_cnt a b : a <= b -> forall E, count_occ pair_dec (map undirected E) (a, b) * (if a =? b then 2 else 1) = cnt (nbrs E a) b.
Proof.
  intros L E. induction E as [|[x y] E IH]; [reflexivity|]. cbn [map nbrs flat_map]. fold (nbrs E a). rewrite count_occ_app, <- IH.
  unfold undirected at 1. cbn [fst snd count_occ]. unfold nbrs1. cbn [fst snd].
  destruct (pair_dec (Nat.min x y, Nat.max x y) (a, b)) as [H|H].
  - injection H as H1 H2. destruct (Nat.eqb_spec a b) as [->|D].
    + assert (x = b) by lia. assert (y = b) by lia. clear H1 H2 L. subst x y. cbn. rewrite ?Nat.eqb_refl. cbn. destruct (Nat.eq_dec b b); [lia|congruence].
    + destruct (Nat.eqb_spec x a) as [->|X]; destruct (Nat.eqb_spec y a) as [->|Y]; cbn;
        repeat (match goal with |- context [Nat.eq_dec ?u ?w] => destruct (Nat.eq_dec u w) end); lia.
  - assert (N : ~ (x = a /\ y = b) /\ ~ (y = a /\ x = b)) by (split; intros [-> ->]; apply H; f_equal; lia).
    destruct (Nat.eqb_spec x a) as [->|X]; destruct (Nat.eqb_spec y a) as [->|Y]; cbn;
        repeat (match goal with |- context [Nat.eq_dec ?u ?w] => destruct (Nat.eq_dec u w) end); subst; try tauto; lia.
Qed.
Lemma undirected_order E a b : b < a -> count_occ pair_dec (map undirected E) (a, b) = 0.
Proof.
  intros L. apply count_occ_not_In. intros H. apply in_map_iff in H. destruct H as ([x y] & H & _). unfold undirected in H. injection H as H1 H2. cbn in *. lia.
Qed.
Lemma nbrs_edges E F : (forall v, Permutation (nbrs E v) (nbrs F v)) -> Permutation (map undirected E) (map undirected F).
Proof.
  intros H. apply (Permutation_count_occ pair_dec). intros [a b]. destruct (le_lt_dec a b) as [L|L].
  - pose proof (undirected_cnt a b L E) as X. pose proof (undirected_cnt a b L F) as Y.
    rewrite (proj1 (Permutation_count_occ Nat.eq_dec _ _) (H a) b) in X. destruct (a =? b); lia.
  - rewrite !undirected_order by exact L. reflexivity.
Qed.
Section Rings.
  Variable E : list (nat * nat).
  Hypothesis deg : forall v, In v (end_list E) -> length (nbrs E v) = 2.
  Record done (rings : list (list nat)) (visited : list nat) : Prop := {
    dn_visited : visited = concat rings;
    dn_nodup : NoDup visited;
    dn_keys : forall v, In v visited -> In v (end_list E);
    dn_ends : forall v, In v (end_list (flat_map cyclic_pairs rings)) -> In v visited;
    dn_full : forall v, In v visited -> full E (flat_map cyclic_pairs rings) v;
    dn_nil : ~ In [] rings
  }.
  Lemma ring_step rings visited s : done rings visited -> In s (end_list E) -> ~ In s visited ->
    exists r, walk (S (length (adjacency E))) (adjacency E) s None s [] visited = Ok (s :: r, visited ++ s :: r) /\
      done (rings ++ [s :: r]) (visited ++ s :: r).
  Proof.
    intros D K N. destruct (walk_spec E deg (S (length (adjacency E))) (flat_map cyclic_pairs rings) s None s [] visited) as (r & W & W1 & W2 & W3 & W4).
    - constructor.
      + apply (Permutation_NoDup (l := s :: visited)); [apply Permutation_cons_append|]. constructor; [exact N|apply (dn_nodup _ _ D)].
      + intros v [].
      + intros v X. apply in_app_iff. left. apply (dn_ends _ _ D), X.
      + intros v X. apply in_app_iff in X. destruct X as [X|[<-|[]]]; [apply (dn_keys _ _ D), X|exact K].
      + intros v X _. apply (dn_full _ _ D), X.
      + split; [reflexivity|]. split; [reflexivity|]. apply nbrs_none. intros X. apply N, (dn_ends _ _ D), X.
    - lia.
    - exists r. split; [exact W|].
      assert (X : flat_map cyclic_pairs (rings ++ [s :: r]) = flat_map cyclic_pairs rings ++ combine (s :: r) (r ++ [s])).
      { rewrite flat_map_app. cbn [flat_map]. rewrite app_nil_r. reflexivity. }
      constructor; rewrite ?X; try assumption.
      + rewrite concat_app, (dn_visited _ _ D). cbn [concat]. rewrite app_nil_r. reflexivity.
      + intros I. apply in_app_iff in I. destruct I as [I|[I|[]]]; [apply (dn_nil _ _ D I)|discriminate].
  Qed.
  Lemma loop_spec : forall keys visited rings, done rings visited -> (forall v, In v keys -> In v (end_list E)) ->
    exists more vis, ring_loop (adjacency E) keys visited rings = Ok (rings ++ more) /\ done (rings ++ more) vis /\
      (forall v, In v visited \/ In v keys -> In v vis).
  Proof.
    induction keys as [|s keys IH]; intros visited rings D K.
    - exists [], visited. rewrite app_nil_r. split; [reflexivity|]. split; [exact D|]. intros v [H|[]]. exact H.
    - cbn [ring_loop]. destruct (existsb (Nat.eqb s) visited) eqn:X.
      + apply existsb_eq in X. destruct (IH visited rings D) as (more & vis & H & D' & I); [intros v H; apply K; right; exact H|].
        exists more, vis. split; [exact H|]. split; [exact D'|]. intros v [Y|[<-|Y]]; apply I; tauto.
      + assert (N : ~ In s visited) by (intros Y; apply existsb_eq in Y; congruence).
        destruct (ring_step rings visited s D (K s (or_introl eq_refl)) N) as (r & W & D').
        rewrite W. cbn [bind fst snd]. destruct (IH _ _ D') as (more & vis & H & D'' & I); [intros v Y; apply K; right; exact Y|].
        exists ((s :: r) :: more), vis. change (rings ++ (s :: r) :: more) with (rings ++ [s :: r] ++ more). rewrite app_assoc. split; [exact H|].
        split; [exact D''|]. intros v [Y|[<-|Y]]; apply I; [left; apply in_app_iff; tauto|left; apply in_elt|right; exact Y].
  Qed.
End Rings.
Lemma done_nil E : done E [] [].
Proof. constructor; cbn; try tauto; constructor. Qed.
Lemma refused_iff E : existsb (fun p => negb (length (snd p) =? 2)) (adjacency E) = true <-> exists v, In v (end_list E) /\ degree E v <> 2.
Proof.
  destruct (keys_adj E) as (N & K). rewrite existsb_exists. split.
  - intros ((k & l) & I & H). cbn in H. apply negb_true_iff, Nat.eqb_neq in H. exists k. split; [apply K; apply (in_map fst) in I; exact I|].
    rewrite <- nbrs_len, <- lookup_adj, (lookup_pair _ _ _ N I). exact H.
  - intros (v & I & H). apply K in I. apply in_map_iff in I. destruct I as ((k & l) & X & I). cbn in X. subst k. exists (v, l). split; [exact I|].
    cbn. apply negb_true_iff, Nat.eqb_neq. rewrite <- (lookup_pair _ _ _ N I), lookup_adj, nbrs_len. exact H.
Qed.
Lemma rings_refused E : (exists v, In v (end_list E) /\ degree E v <> 2) -> ring_indices E = Raise ValueError.
Proof.
  intros H. destruct E as [|e E]; [destruct H as (v & [] & _)|]. unfold ring_indices. apply refused_iff in H. rewrite H. reflexivity.
Qed.
Lemma rings_of E : (forall v, In v (end_list E) -> degree E v = 2) ->
  exists rings, ring_indices E = Ok rings /\ decomposes E rings /\
    match E with [] => rings = [] | e :: _ => exists r t, rings = (fst e :: r) :: t end.
Proof.
  intros H. destruct E as [|e E'].
  - exists []. split; [reflexivity|]. split; [|reflexivity]. split; [constructor|]. split; [cbn; tauto|]. split; [tauto|constructor].
  - set (E := e :: E') in *. enough (X : exists rings, ring_indices E = Ok rings /\ decomposes E rings /\ exists r t, rings = (fst e :: r) :: t) by exact X.
    assert (R : ring_indices E = if existsb (fun p => negb (length (snd p) =? 2)) (adjacency E) then Raise ValueError
                                 else ring_loop (adjacency E) (map fst (adjacency E)) [] []) by reflexivity.
    rewrite R. clear R.
    destruct (existsb _ (adjacency E)) eqn:X; [apply refused_iff in X; destruct X as (v & I & N); destruct (N (H v I))|].
    assert (deg : forall v, In v (end_list E) -> length (nbrs E v) = 2) by (intros v I; rewrite nbrs_len; apply H, I).
    destruct (keys_adj E) as (_ & K). destruct (first_key e E') as (t & Ht). fold E in Ht. rewrite Ht. cbn [ring_loop existsb].
    assert (I0 : In (fst e) (end_list E)) by (left; reflexivity). clearbody E.
    destruct (ring_step E deg [] [] (fst e) (done_nil E) I0) as (r & W & D); [tauto|]. rewrite W. cbn [bind fst snd app].
    destruct (loop_spec E deg t _ _ D) as (more & vis & L & D' & I).
    { intros v Y. apply K. rewrite Ht. right. exact Y. }
    cbn [app] in L. rewrite L. eexists. split; [reflexivity|]. split; [|eexists; eexists; reflexivity]. cbn [app] in D'.
    assert (Sub : forall v, In v (end_list E) -> In v vis).
    { intros v Y. apply K in Y. rewrite Ht in Y. destruct Y as [<-|Y]; apply I; [left; left; reflexivity|right; exact Y]. }
    pose proof (dn_visited _ _ _ D') as V. subst vis.
    split; [apply (dn_nodup _ _ _ D')|]. split; [intros v; split; [apply (dn_keys _ _ _ D')|apply Sub]|]. split; [apply (dn_nil _ _ _ D')|].
    apply nbrs_edges. intros v. destruct (in_dec Nat.eq_dec v (end_list E)) as [Y|Y].
    + apply Permutation_sym, (dn_full _ _ _ D'), Sub, Y.
    + rewrite (nbrs_none _ _ Y). rewrite nbrs_none; [constructor|]. intros Z. apply Y, (dn_keys _ _ _ D'), (dn_ends _ _ _ D'), Z.
Qed.

(** * Coordinates *)
Lemma mapM_get (node : list xy) r : (forall v, In v r -> v < length node) -> mapM (get node) r = Ok (places node r).
Proof.
  induction r as [|v r IH]; intros H; [reflexivity|]. cbn [mapM places map]. unfold get at 1.
  rewrite (nth_error_nth' node (0, 0)%Q) by (apply H; left; reflexivity). cbn [bind]. rewrite IH by (intros w I; apply H; right; exact I). reflexivity.
Qed.
Lemma mapM_places (node : list xy) rings : (forall v, In v (concat rings) -> v < length node) -> mapM (mapM (get node)) rings = Ok (map (places node) rings).
Proof.
  induction rings as [|r rings IH]; intros H; [reflexivity|]. cbn [mapM map]. cbn [concat] in H.
  rewrite mapM_get by (intros v I; apply H, in_app_iff; tauto). cbn [bind]. rewrite IH by (intros v I; apply H, in_app_iff; tauto). reflexivity.
Qed.
Lemma rings_places node E : (forall v, In v (end_list E) -> v < length node) ->
  (forall v, In v (end_list E) -> degree E v = 2) ->
  exists rings, edges_to_rings node E = Ok (map (places node) rings) /\ ring_indices E = Ok rings /\ decomposes E rings /\
    match E with [] => rings = [] | e :: _ => exists r t, rings = (fst e :: r) :: t end.
Proof.
  intros V H. destruct (rings_of E H) as (rings & R & D & F). exists rings. unfold edges_to_rings. rewrite R. cbn [bind].
  rewrite mapM_places; [tauto|]. intros v I. apply V. apply D, I.
Qed.
Lemma rings_refused' node E : (exists v, In v (end_list E) /\ degree E v <> 2) -> edges_to_rings node E = Raise ValueError.
Proof. intros H. unfold edges_to_rings. rewrite (rings_refused E H). reflexivity. Qed.
Lemma degree_dec E : (forall v, In v (end_list E) -> degree E v = 2) \/ exists v, In v (end_list E) /\ degree E v <> 2.
Proof.
  destruct (existsb (fun p => negb (length (snd p) =? 2)) (adjacency E)) eqn:X; [right; apply refused_iff, X|left].
  intros v I. destruct (Nat.eq_dec (degree E v) 2) as [H|H]; [exact H|]. exfalso.
  assert (Y : exists v, In v (end_list E) /\ degree E v <> 2) by (exists v; tauto). apply refused_iff in Y. congruence.
Qed.
Lemma rings_ok node E rs : (forall v, In v (end_list E) -> v < length node) -> edges_to_rings node E = Ok rs ->
  exists rings, rs = map (places node) rings /\ decomposes E rings.
Proof.
  intros V H. destruct (degree_dec E) as [D|D]; [|rewrite (rings_refused' node E D) in H; discriminate].
  destruct (rings_places node E V D) as (rings & X & _ & Y & _). exists rings. split; [congruence|exact Y].
Qed.
Lemma places_segments node r : ring_segments (places node r) = map (lookup node) (cyclic_pairs r).
Proof.
  unfold ring_segments, cyclic_pairs. rewrite map_lookup_combine. f_equal. unfold places. rewrite map_app. f_equal; destruct r; reflexivity.
Qed.
Lemma rings_segments node rings : flat_map ring_segments (map (places node) rings) = map (lookup node) (flat_map cyclic_pairs rings).
Proof. induction rings as [|r rings IH]; [reflexivity|]. cbn [map flat_map]. rewrite map_app, places_segments, IH. reflexivity. Qed.
Lemma undirected_lookup {A} (g : seg -> A) node : (forall s, g (flip s) = g s) -> forall e, g (lookup node (undirected e)) = g (lookup node e).
Proof.
  intros H [a b]. unfold undirected, lookup. cbn [fst snd]. destruct (le_lt_dec a b) as [L|L].
  - rewrite Nat.min_l, Nat.max_r by lia. reflexivity.
  - rewrite Nat.min_r, Nat.max_l by lia. exact (H (nth a node (0, 0), nth b node (0, 0))%Q).
Qed.
Lemma par_perm {A} (g : A -> bool) l l' : Permutation l l' -> par g l = par g l' /\ existsb g l = existsb g l'.
Proof.
  induction 1 as [|x l l' P [IH1 IH2]|x y l|l1 l2 l3 P [IH1 IH2] P' [IH3 IH4]].
  - split; reflexivity.
  - cbn. change (fold_right (fun x b => xorb (g x) b) false) with (par g). rewrite IH1, IH2. split; reflexivity.
  - cbn. split; [destruct (g x), (g y)|destruct (g x), (g y)]; cbn; try reflexivity;
      destruct (fold_right _ _ _); reflexivity.
  - split; congruence.
Qed.
Lemma par_map {A B} (f : A -> B) (g : B -> bool) l : par g (map f l) = par (fun x => g (f x)) l.
Proof. induction l as [|x l IH]; [reflexivity|]. cbn. f_equal. exact IH. Qed.
Lemma existsb_map {A B} (f : A -> B) (g : B -> bool) l : existsb g (map f l) = existsb (fun x => g (f x)) l.
Proof. induction l as [|x l IH]; [reflexivity|]. cbn. f_equal. exact IH. Qed.
Lemma existsb_ext' {A} (f g : A -> bool) l : (forall x, f x = g x) -> existsb f l = existsb g l.
Proof. intros H. induction l as [|x l IH]; [reflexivity|]. cbn. rewrite H, IH. reflexivity. Qed.
Lemma rings_par node E rings g : decomposes E rings -> (forall s, g (flip s) = g s) ->
  par g (flat_map ring_segments (map (places node) rings)) = par g (map (lookup node) E) /\
  existsb g (flat_map ring_segments (map (places node) rings)) = existsb g (map (lookup node) E).
Proof.
  intros (_ & _ & _ & P) F. rewrite rings_segments, !par_map, !existsb_map.
  destruct (par_perm (fun e => g (lookup node e)) _ _ P) as (X & Y). rewrite !par_map in X. rewrite !existsb_map in Y.
  rewrite (par_ext _ (fun e => g (lookup node e)) (flat_map cyclic_pairs rings)) in X by (intros; apply undirected_lookup, F).
  rewrite (par_ext _ (fun e => g (lookup node e)) E) in X by (intros; apply undirected_lookup, F).
  rewrite (existsb_ext' _ (fun e => g (lookup node e)) (flat_map cyclic_pairs rings)) in Y by (intros; apply undirected_lookup, F).
  rewrite (existsb_ext' _ (fun e => g (lookup node e)) E) in Y by (intros; apply undirected_lookup, F). split; assumption.
Qed.
Lemma flat_par {A B} (f : A -> list B) (g : B -> bool) l : par g (flat_map f l) = par (fun x => par g (f x)) l.
Proof. induction l as [|x l IH]; [reflexivity|]. cbn [flat_map]. rewrite par_app, IH. reflexivity. Qed.
Lemma in_ring_par r q : in_ring r q <-> par (rc_tog 0 q) (ring_segments r) = true.
Proof. unfold in_ring. rewrite (om_par _ (rc_tog 0 q)) by (intros; apply rc_tog0). split; congruence. Qed.
Lemma on_side_b segs q : on_side segs q <-> existsb (rc_hit 0 q) segs = true.
Proof. unfold on_side. rewrite existsb_exists. split; intros (s & I & H); exists s; (split; [exact I|]); apply rc_hit0, H. Qed.
Lemma odd_b segs q : odd_many (crosses q) true segs <-> par (rc_tog 0 q) segs = true.
Proof. rewrite (om_par _ (rc_tog 0 q)) by (intros; apply rc_tog0). split; congruence. Qed.
Lemma on_rings_b rings q : (exists r, In r rings /\ on_ring r q) <-> existsb (rc_hit 0 q) (flat_map ring_segments rings) = true.
Proof.
  rewrite <- on_side_b. unfold on_side, on_ring. split.
  - intros (r & I & s & J & H). exists s. split; [apply in_flat_map; exists r; tauto|exact H].
  - intros (s & I & H). apply in_flat_map in I. destruct I as (r & I & J). exists r. split; [exact I|]. exists s. tauto.
Qed.
Lemma par_one {A} (g : A -> bool) l : (forall i j x y, i <> j -> nth_error l i = Some x -> nth_error l j = Some y -> g x = true -> g y = false) ->
  par g l = existsb g l.
Proof.
  induction l as [|x l IH]; intros H; [reflexivity|]. cbn. change (fold_right (fun x b => xorb (g x) b) false l) with (par g l).
  destruct (g x) eqn:X.
  - rewrite par_none; [reflexivity|]. intros y I. apply In_nth_error in I. destruct I as (n & I). apply (H 0 (S n) x y); [discriminate|reflexivity|exact I|exact X].
  - rewrite IH; [destruct (existsb g l); reflexivity|]. intros i j a b D Ha Hb. apply (H (S i) (S j) a b); [congruence|exact Ha|exact Hb].
Qed.
(** Strictly inside the outer ring and outside the holes, against the parity of all sides. *)
Lemma nested_parity outer holes q : nested outer holes -> (forall r, In r (outer :: holes) -> ~ on_ring r q) ->
  (in_ring outer q /\ (forall h, In h holes -> ~ in_ring h q)) <-> par (rc_tog 0 q) (flat_map ring_segments (outer :: holes)) = true.
Proof.
  intros N F. destruct (N q F) as (N1 & N2). cbn [flat_map]. rewrite par_app, flat_par.
  rewrite (par_one (fun h => par (rc_tog 0 q) (ring_segments h)) holes).
  - destruct (existsb _ holes) eqn:X.
    + rewrite existsb_exists in X. destruct X as (h & I & H). assert (Y : in_ring h q) by (apply in_ring_par, H). pose proof (N1 h I Y) as Z.
      apply in_ring_par in Z. rewrite Z. cbn. split; [intros (_ & W); destruct (W h I Y)|discriminate].
    + rewrite xorb_false_r, <- in_ring_par. split; [tauto|]. intros H. split; [exact H|]. intros h I Y. apply in_ring_par in Y.
      assert (existsb (fun x => par (rc_tog 0 q) (ring_segments x)) holes = true) by (apply existsb_exists; exists h; tauto). congruence.
  - intros i j x y D Hx Hy Gx. destruct (par _ (ring_segments y)) eqn:Y; [|reflexivity]. exfalso.
    apply (N2 i j x y D Hx Hy); apply in_ring_par; assumption.
Qed.

(** * The single ring *)
Definition chain (a n : nat) : list (nat * nat) := combine (seq a n) (seq (S a) n).
Lemma chain_last a n : chain a (S n) = chain a n ++ [(a + n, a + S n)].
Proof.
  unfold chain. revert a. induction n as [|n IH]; intros a.
  - cbn. rewrite ?Nat.add_0_r, ?Nat.add_1_r. reflexivity.
  - change (seq a (S (S n))) with (a :: seq (S a) (S n)). change (seq (S a) (S (S n))) with (S a :: seq (S (S a)) (S n)).
    cbn [combine]. rewrite IH. cbn [seq combine app]. f_equal. f_equal. f_equal. f_equal; lia.
Qed.
Lemma chain_nbrs n v : nbrs (chain 0 n) v = (if (1 <=? v) && (v <=? n) then [v - 1] else []) ++ (if v <? n then [v + 1] else []).
Proof.
  induction n as [|n IH].
  - destruct v; reflexivity.
  - rewrite chain_last, nbrs_app, IH. unfold nbrs, nbrs1. cbn [flat_map fst snd]. rewrite app_nil_r, !Nat.add_0_l.
    destruct (Nat.leb_spec 1 v), (Nat.leb_spec v n), (Nat.ltb_spec v n), (Nat.leb_spec v (S n)), (Nat.ltb_spec v (S n)), (Nat.eqb_spec n v), (Nat.eqb_spec (S n) v); try lia; cbn; subst; try reflexivity;
      repeat f_equal; lia.
Qed.
Lemma combine_app' {A B} (a a' : list A) (b b' : list B) : length a = length b -> combine (a ++ a') (b ++ b') = combine a b ++ combine a' b'.
Proof. revert b. induction a as [|x a IH]; intros [|y b] H; try discriminate; [reflexivity|]. cbn. f_equal. apply IH. injection H as H. exact H. Qed.
Lemma ring_edges_chain m : ring_edges (S m) = chain 0 m ++ [(m, 0)].
Proof.
  unfold ring_edges, chain. replace (S m - 1) with m by lia. rewrite seq_S. cbn [Nat.add].
  rewrite combine_app' by (rewrite !seq_length; reflexivity). reflexivity.
Qed.
Lemma ring_nbrs m v : 2 <= m -> v <= m -> nbrs (ring_edges (S m)) v =
  if v =? 0 then [1; m] else if v =? m then [m - 1; 0] else [v - 1; v + 1].
Proof.
  intros M V. rewrite ring_edges_chain, nbrs_app, chain_nbrs. unfold nbrs, nbrs1. cbn [flat_map fst snd]. rewrite app_nil_r.
  destruct (Nat.leb_spec 1 v), (Nat.leb_spec v m), (Nat.ltb_spec v m), (Nat.eqb_spec m v), (Nat.eqb_spec v m), (Nat.eqb_spec 0 v), (Nat.eqb_spec v 0); try lia; subst; cbn; try reflexivity; repeat f_equal; lia.
Qed.
Lemma ring_walk m : 2 <= m -> forall fuel k ring vis, 1 <= k <= m -> m < k + fuel ->
  walk fuel (adjacency (ring_edges (S m))) 0 (Some (k - 1)) k ring vis = Ok (ring ++ seq k (S m - k), vis ++ seq k (S m - k)).
Proof.
  intros M. induction fuel as [|fuel IH]; intros k ring vis K F; [lia|]. cbn [walk]. rewrite lookup_adj, ring_nbrs by lia.
  destruct (Nat.eqb_spec k 0); [lia|]. destruct (Nat.eqb_spec k m) as [->|D].
  - cbn [get nth_error bind]. destruct (Nat.eqb_spec 0 (m - 1)); [lia|]. cbn [Nat.eqb]. replace (S m - m) with 1 by lia. reflexivity.
  - cbn [get nth_error bind]. destruct (Nat.eqb_spec (k + 1) (k - 1)); [lia|]. destruct (Nat.eqb_spec (k + 1) 0); [lia|].
    replace (Some k) with (Some (k + 1 - 1)) by (f_equal; lia). rewrite IH by lia. rewrite <- !app_assoc.
    replace (S m - k) with (S (S m - (k + 1))) by lia. cbn [seq]. rewrite Nat.add_1_r. reflexivity.
Qed.
Lemma loop_all_seen adj keys vis rings : (forall v, In v keys -> In v vis) -> ring_loop adj keys vis rings = Ok rings.
Proof.
  induction keys as [|k keys IH]; intros H; [reflexivity|]. cbn [ring_loop]. destruct (existsb (Nat.eqb k) vis) eqn:X.
  - apply IH. intros v I. apply H. right. exact I.
  - assert (In k vis) by (apply H; left; reflexivity). apply existsb_eq in H0. congruence.
Qed.
Lemma ring_end_list m v : In v (end_list (ring_edges (S m))) -> v <= m.
Proof.
  intros H. unfold end_list in H. apply in_flat_map in H. destruct H as ([a b] & I & J). unfold ring_edges in I.
  pose proof (in_combine_l _ _ _ _ I) as A. pose proof (in_combine_r _ _ _ _ I) as B. apply in_seq in A. apply in_app_iff in B.
  cbn in J. destruct J as [<-|[<-|[]]]; [lia|]. destruct B as [B|[<-|[]]]; [apply in_seq in B|]; lia.
Qed.
Lemma ring_one m : 3 <= m -> ring_indices (ring_edges m) = Ok [seq 0 m].
Proof.
  intros M. destruct m as [|m]; [lia|]. set (E := ring_edges (S m)).
  assert (D : forall v, In v (end_list E) -> length (nbrs E v) = 2).
  { intros v I. unfold E. rewrite ring_nbrs by (try apply ring_end_list, I; lia). destruct (v =? 0), (v =? m); reflexivity. }
  destruct (rings_of E) as (rings & R & _ & _); [intros v I; rewrite <- nbrs_len; apply D, I|].
  assert (E0 : exists e E', E = e :: E' /\ fst e = 0).
  { unfold E, ring_edges. cbn [seq combine]. destruct (seq 1 (S m - 1) ++ [0]) eqn:X; [destruct (seq 1 (S m - 1)); discriminate|]. cbn. eexists. eexists. split; [reflexivity|reflexivity]. }
  destruct E0 as (e & E' & EE & E0). destruct (first_key e E') as (t & Ht). rewrite <- EE in Ht. rewrite E0 in Ht.
  assert (U : ring_indices E = if existsb (fun p => negb (length (snd p) =? 2)) (adjacency E) then Raise ValueError
                                 else ring_loop (adjacency E) (map fst (adjacency E)) [] []) by (rewrite EE; reflexivity).
  rewrite U in *. destruct (existsb _ _); [discriminate|]. rewrite Ht in *. cbn [ring_loop existsb]. cbn [walk]. rewrite lookup_adj. assert (LN : nbrs E 0 = [1; m]) by (unfold E; rewrite ring_nbrs by lia; reflexivity). rewrite LN.
  cbn [Nat.eqb get nth_error bind]. change (Some 0) with (Some (1 - 1)).
  assert (LA : length (adjacency E) = S m).
  { destruct (keys_adj E) as (N & K). rewrite <- (map_length fst).
    assert (P : Permutation (map fst (adjacency E)) (seq 0 (S m))); [apply NoDup_Permutation; [exact N|apply seq_NoDup|]|rewrite (Permutation_length P); apply seq_length].
    intros v. rewrite K, in_seq. split; [intros I; apply ring_end_list in I; lia|]. intros V. apply nbrs_end. unfold E. rewrite ring_nbrs by lia. destruct (v =? 0), (v =? m); discriminate. }
  assert (M2 : 2 <= m) by lia. pose proof (ring_walk m M2) as RW. fold E in RW. rewrite LA, RW by lia. cbn [bind fst snd app]. rewrite loop_all_seen.
  - replace (S m - 1) with m by lia. reflexivity.
  - intros v I. destruct (keys_adj E) as (_ & K). assert (J : In v (end_list E)) by (apply K; rewrite Ht; right; exact I). apply ring_end_list in J.
    destruct v as [|v]; [left; reflexivity|right; apply in_seq; lia].
Qed.
Lemma ring_one_node (node : list xy) : 3 <= length node -> edges_to_rings node (ring_edges (length node)) = Ok [node].
Proof.
  intros M. unfold edges_to_rings. rewrite ring_one by exact M. cbn [bind]. rewrite mapM_places.
  - cbn [map]. unfold places. rewrite nth_seq_id. reflexivity.
  - cbn [concat]. rewrite app_nil_r. intros v I. apply in_seq in I. lia.
Qed.

(** * The caller, for backends that may raise *)
Lemma side_pairs_ring (node : list xy) : node <> [] -> side_pairs node None = ring_edges (length node).
Proof.
  intros N. unfold side_pairs, ring_edges. destruct node as [|p node]; [congruence|]. cbn [length seq tl firstn]. replace (S (length node) - 1) with (length node) by lia. reflexivity.
Qed.
Definition edge_ok (node : list xy) (edge : option (list (Z * Z))) : Prop :=
  match edge with Some es => valid_edges node es | None => 2 <= length node end.
Lemma with_run (k : backend) ftol node edge vert g : node <> [] -> edge_ok node edge ->
  (forall v, k ftol node (side_pairs node edge) v = Ok (map g v)) ->
  inpoly2_with k ftol node edge vert =
  Ok (map (fun p => if finite_pt p then fst (g (to_xy p)) else false) vert,
      map (fun p => if finite_pt p then snd (g (to_xy p)) else false) vert).
Proof.
  intros N V K. set (k' := fun (_ : Q) (_ : list xy) (_ : list (nat * nat)) v => map g v).
  assert (KM : kernel_map k' (fun _ _ _ => g)) by (intros a b c d; reflexivity).
  destruct edge as [es|].
  - rewrite <- (inpoly2_edges k' _ ftol node es vert KM N V). unfold inpoly2_with, inpoly2. destruct node as [|p node]; [congruence|].
    apply valid_edges_iff in V. rewrite V. cbn [side_pairs] in K. destruct (existsb _ _); [|reflexivity]. rewrite K. reflexivity.
  - cbn in V. rewrite <- (inpoly2_ring k' _ ftol node vert KM V). rewrite (side_pairs_ring node N) in K. unfold inpoly2_with, inpoly2. destruct node as [|p node]; [congruence|].
    destruct (length (p :: node) <? 2); [reflexivity|]. destruct (existsb _ _); [|reflexivity]. rewrite K. reflexivity.
Qed.
(** What any backend gives, when it answers query by query. *)
Definition queried (k : backend) ftol node edge : Prop :=
  (exists g, forall v, k ftol node edge v = Ok (map g v)) \/ (exists r, (forall l, r <> Ok l) /\ forall v, k ftol node edge v = r).
Lemma with_queried (k : backend) ftol node edge : queried k ftol node (side_pairs node edge) ->
  exists f, (forall p, ~ finite_point p -> f p = (false, false)) /\
  forall vert s b, inpoly2_with k ftol node edge vert = Ok (s, b) -> s = map (fun p => fst (f p)) vert /\ b = map (fun p => snd (f p)) vert.
Proof.
  intros Qd.
  assert (Z : forall A (l : list A), repeat false (length l) = map (fun _ => false) l) by (intros A l; induction l; cbn; congruence).
  assert (Dfl : (forall vert s b, inpoly2_with k ftol node edge vert = Ok (s, b) -> s = repeat false (length vert) /\ b = repeat false (length vert)) ->
     exists f, (forall p, ~ finite_point p -> f p = (false, false)) /\
       forall vert s b, inpoly2_with k ftol node edge vert = Ok (s, b) -> s = map (fun p => fst (f p)) vert /\ b = map (fun p => snd (f p)) vert).
  { intros H. exists (fun _ => (false, false)). split; [reflexivity|]. intros vert s b X. destruct (H vert s b X) as (-> & ->). rewrite Z. split; reflexivity. }
  destruct (list_eq_dec (A := unit) (fun a b => match a, b with tt, tt => left eq_refl end) (map (fun _ => tt) node) []) as [N|N].
  { apply Dfl. intros vert s b X. destruct node; [|discriminate]. cbn in X. injection X as <- <-. split; reflexivity. }
  assert (N' : node <> []) by (intros ->; apply N; reflexivity).
  destruct edge as [es|].
  - destruct (forallb (fun e => (0 <=? fst e)%Z && (0 <=? snd e)%Z && (fst e <? Z.of_nat (length node))%Z && (snd e <? Z.of_nat (length node))%Z) es) eqn:V.
    + destruct Qd as [(g & G)|(r & R1 & R2)].
      * exists (fun p => if finite_pt p then g (to_xy p) else (false, false)). split; [intros p NF; rewrite finite_pt_false by exact NF; reflexivity|].
        intros vert s b X. apply valid_edges_iff in V. rewrite (with_run k ftol node (Some es) vert g N' V G) in X. injection X as <- <-.
        split; apply map_ext; intros p; destruct (finite_pt p); reflexivity.
      * apply Dfl. intros vert s b X. unfold inpoly2_with in X. destruct node as [|q node]; [congruence|]. rewrite V in X. destruct (existsb _ _); [|injection X as <- <-; split; reflexivity].
        unfold side_pairs in R2. rewrite R2 in X. destruct r as [l| |]; [destruct (R1 l eq_refl)|discriminate|discriminate].
    + apply Dfl. intros vert s b X. unfold inpoly2_with in X. destruct node as [|q node]; [congruence|]. rewrite V in X. discriminate.
  - destruct (le_lt_dec 2 (length node)) as [V|V].
    + destruct Qd as [(g & G)|(r & R1 & R2)].
      * exists (fun p => if finite_pt p then g (to_xy p) else (false, false)). split; [intros p NF; rewrite finite_pt_false by exact NF; reflexivity|].
        intros vert s b X. rewrite (with_run k ftol node None vert g N' V G) in X. injection X as <- <-.
        split; apply map_ext; intros p; destruct (finite_pt p); reflexivity.
      * apply Dfl. rewrite (side_pairs_ring node N') in R2. intros vert s b X. unfold inpoly2_with in X. destruct node as [|q node]; [congruence|].
        destruct (Nat.ltb_spec (length (q :: node)) 2); [lia|]. destruct (existsb _ _); [|injection X as <- <-; split; reflexivity].
        rewrite R2 in X. destruct r as [l| |]; [destruct (R1 l eq_refl)|discriminate|discriminate].
    + apply Dfl. intros vert s b X. unfold inpoly2_with in X. destruct node as [|q node]; [congruence|].
      destruct (Nat.ltb_spec (length (q :: node)) 2); [|lia]. injection X as <- <-. split; reflexivity.
Qed.
Lemma raycasting_queried ftol node edge : queried raycasting ftol node edge.
Proof. left. exists (rc_answer ftol node edge). intros v. unfold raycasting. rewrite raycasting_map. reflexivity. Qed.
Lemma compiled_queried ftol node edge : queried compiled ftol node edge.
Proof. left. eexists. intros v. unfold compiled. rewrite (fk_kernel ftol node edge v). reflexivity. Qed.
Lemma shapely_queried {P} (make : list xy -> list (list xy) -> res P) contains within ftol node edge : queried (inpoly_shapely P make contains within) ftol node edge.
Proof.
  unfold queried, inpoly_shapely. destruct (edges_to_rings node edge) as [[|outer holes]|x|].
  - apply raycasting_queried.
  - destruct (make outer holes) as [p|x|]; cbn [bind].
    + left. eexists. intros v. reflexivity.
    + right. exists (Raise x). split; [discriminate|reflexivity].
    + right. exists OutOfFuel. split; [discriminate|reflexivity].
  - destruct x; try apply raycasting_queried; right; eexists; (split; [|intros v; reflexivity]); discriminate.
  - right. exists OutOfFuel. split; [discriminate|reflexivity].
Qed.
Lemma mpl_queried cp ftol node edge : queried (inpoly_matplotlib cp) ftol node edge.
Proof.
  unfold queried, inpoly_matplotlib. destruct (edges_to_rings node edge) as [rings|x|].
  - destruct (flat_map ring_path rings) as [|c path]; [apply raycasting_queried|]. left. eexists. intros v. reflexivity.
  - destruct x; try apply raycasting_queried; right; eexists; (split; [|intros v; reflexivity]); discriminate.
  - right. exists OutOfFuel. split; [discriminate|reflexivity].
Qed.
Lemma named_iff s : named_method s = true <-> In s ["raycasting"; "shapely"; "matplotlib"]%string.
Proof.
  unfold named_method. rewrite !orb_true_iff, !String.eqb_eq. cbn. split; [intros [[->| ->]| ->]; tauto|intros [<-|[<-|[<-|[]]]]; tauto].
Qed.
Lemma dispatch_queried (shapely mpl : backend) e ftol node edge : settled e (length edge) ->
  queried shapely ftol node edge -> queried mpl ftol node edge -> queried (dispatch shapely mpl e) ftol node edge.
Proof.
  intros S Hs Hm. unfold queried, dispatch, select_method.
  destruct (named_method (method_env e)) eqn:N; cbn [negb andb].
  - destruct (_ && _); [exact Hs|]. destruct (_ && _); [exact Hm|apply raycasting_queried].
  - destruct (have_compiled e) eqn:C; [apply compiled_queried|]. destruct S as [S|[S|[S|(S1 & S2)]]]; [congruence|apply named_iff in S; congruence| |].
    + replace (length edge <? 1000) with false by (symmetry; apply Nat.ltb_ge, S).
      destruct (have_shapely e) eqn:HS, (have_mpl e) eqn:HM.
      all: match goal with |- ?G => assert (X : forall r : list xy -> res (list (bool * bool)), (exists g, forall v, r v = Ok (map g v)) \/ (exists x, (forall l, x <> Ok l) /\ forall v, r v = x) ->
             forall r', (forall v, r' v = r v) -> (exists g, forall v, r' v = Ok (map g v)) \/ (exists x, (forall l, x <> Ok l) /\ forall v, r' v = x)) end.
      all: try (intros r [(g & G)|(x & X & G)] r' E; [left; exists g|right; exists x; split; [exact X|]]; intros v; rewrite E; apply G).
      1, 2: apply (X _ Hs). 3: apply (X _ Hm). 4: apply (X _ (raycasting_queried ftol node edge)).
      all: intros v; rewrite !andb_false_r; reflexivity.
    + rewrite S1, S2. destruct (raycasting_queried ftol node edge) as [(g & G)|(x & X & G)]; [left; exists g|right; exists x; split; [exact X|]];
        intros v; rewrite !andb_false_r; apply G.
Qed.

(** * Shapely *)
Lemma sides_lookup node edge : edge_ok node edge -> sides node edge = map (lookup node) (side_pairs node edge).
Proof.
  intros V. destruct edge as [es|]; cbn [sides].
  - apply edge_segments_lookup.
  - cbn in V. rewrite side_pairs_ring by (intros ->; cbn in V; lia). apply ring_segments_lookup.
Qed.
Lemma side_ends node edge v : edge_ok node edge -> In v (end_list (side_pairs node edge)) -> v < length node.
Proof.
  intros V I. destruct edge as [es|]; cbn [side_pairs] in I.
  - unfold end_list in I. apply in_flat_map in I. destruct I as (e & I & J). apply in_map_iff in I. destruct I as (e' & <- & I). cbn in J. destruct (V e' I).
    destruct J as [<-|[<-|[]]]; lia.
  - cbn in V. change (In v (end_list (side_pairs node None))) in I. rewrite side_pairs_ring in I by (intros ->; cbn in V; lia).
    destruct (length node) as [|m] eqn:L; [lia|]. apply ring_end_list in I. lia.
Qed.
Lemma rings_sides node edge rs : edge_ok node edge -> edges_to_rings node (side_pairs node edge) = Ok rs -> forall q,
  par (rc_tog 0 q) (flat_map ring_segments rs) = par (rc_tog 0 q) (sides node edge) /\
  existsb (rc_hit 0 q) (flat_map ring_segments rs) = existsb (rc_hit 0 q) (sides node edge).
Proof.
  intros V H q. destruct (rings_ok node _ rs (fun v => side_ends node edge v V) H) as (rings & -> & D). rewrite sides_lookup by exact V.
  split; apply (rings_par node _ rings); try exact D; intros s; [apply rc_tog_flip|apply rc_hit_flip].
Qed.
Lemma bool_not (a : bool) : ~ a = true <-> a = false.
Proof. destruct a; split; congruence. Qed.
Lemma no_ring_on rs q : (forall r, In r rs -> ~ on_ring r q) <-> existsb (rc_hit 0 q) (flat_map ring_segments rs) = false.
Proof.
  rewrite <- bool_not, <- on_rings_b. split.
  - intros H (r & I & O). exact (H r I O).
  - intros H r I O. apply H. exists r. tauto.
Qed.
Definition answers (g : xy -> bool * bool) (P B : xy -> Prop) : Prop := forall q, (fst (g q) = true <-> P q) /\ (B q -> snd (g q) = true).
Lemma shapely_answers {P} (make : list xy -> list (list xy) -> res P) contains within ftol node edge outer holes :
  faithful make contains within -> (0 <= ftol)%Q -> edge_ok node edge -> edges_to_rings node (side_pairs node edge) = Ok (outer :: holes) -> well_formed outer holes ->
  exists g, (forall v, inpoly_shapely P make contains within ftol node (side_pairs node edge) v = Ok (map g v)) /\
    answers g (fun q => ~ on_side (sides node edge) q /\ odd_many (crosses q) true (sides node edge)) (on_side (sides node edge)).
Proof.
  intros F T V R W. destruct (F outer holes W) as (p & M & H). exists (fun q => (contains p q, within p ftol q)). split.
  - intros v. unfold inpoly_shapely. rewrite R, M. reflexivity.
  - intros q. destruct (H q) as (H1 & H2). destruct (rings_sides node edge _ V R q) as (X & Y). cbn [fst snd]. rewrite on_side_b, odd_b, <- X, <- Y. split.
    + rewrite H1, bool_not, no_ring_on. split.
      * intros (O & I). split; [exact O|]. apply nested_parity; [apply W|apply no_ring_on, O|exact I].
      * intros (O & I). split; [exact O|]. apply nested_parity in I; [exact I|apply W|apply no_ring_on, O].
    + intros O. apply H2; [apply on_rings_b, O|exact T].
Qed.
Lemma node_nonempty (node : list xy) : 3 <= length node -> node <> [].
Proof. intros H ->. cbn in H. lia. Qed.
Lemma answered (k : backend) ftol node edge vert g P B : node <> [] -> edge_ok node edge ->
  (forall v, k ftol node (side_pairs node edge) v = Ok (map g v)) -> answers g P B ->
  exists s b, inpoly2_with k ftol node edge vert = Ok (s, b) /\
    forall i x y, nth_error vert i = Some (Fin x, Fin y) -> exists si bi, nth_error s i = Some si /\ nth_error b i = Some bi /\
      (si = true <-> P (x, y)) /\ (B (x, y) -> bi = true).
Proof.
  intros N V K A. rewrite (with_run k ftol node edge vert g N V K). eexists. eexists. split; [reflexivity|]. intros i x y H.
  exists (fst (g (x, y))), (snd (g (x, y))). rewrite (nth_error_fin (fun q => fst (g q)) false vert i x y H), (nth_error_fin (fun q => snd (g q)) false vert i x y H).
  split; [reflexivity|]. split; [reflexivity|]. apply A.
Qed.
Lemma shapely_edges {P} (make : list xy -> list (list xy) -> res P) contains within ftol node edge outer holes vert :
  faithful make contains within -> (0 <= ftol)%Q -> 3 <= length node -> (forall es, edge = Some es -> valid_edges node es) ->
  edges_to_rings node (side_pairs node edge) = Ok (outer :: holes) -> well_formed outer holes ->
  exists s b, inpoly2_with (inpoly_shapely P make contains within) ftol node edge vert = Ok (s, b) /\
    forall i x y, nth_error vert i = Some (Fin x, Fin y) -> exists si bi, nth_error s i = Some si /\ nth_error b i = Some bi /\
      (si = true <-> ~ on_side (sides node edge) (x, y) /\ odd_many (crosses (x, y)) true (sides node edge)) /\
      (on_side (sides node edge) (x, y) -> bi = true).
Proof.
  intros F T L V R W. assert (V' : edge_ok node edge) by (destruct edge; cbn; [apply V; reflexivity|lia]).
  destruct (shapely_answers make contains within ftol node edge outer holes F T V' R W) as (g & K & A).
  exact (answered _ ftol node edge vert g _ _ (node_nonempty node L) V' K A).
Qed.
Lemma single_well_formed r : simple r -> well_formed r [].
Proof.
  intros S. split; [intros x [<-|[]]; exact S|]. split.
  - intros i j ri rj q L A B. destruct j as [|[|j]]; [lia|discriminate|discriminate].
  - intros q _. split; [intros h []|]. intros i j hi hj _ A. destruct i; discriminate.
Qed.
Lemma shapely_ring {P} (make : list xy -> list (list xy) -> res P) contains within ftol node vert :
  faithful make contains within -> (0 <= ftol)%Q -> simple node ->
  exists s b, inpoly2_with (inpoly_shapely P make contains within) ftol node None vert = Ok (s, b) /\
    forall i x y, nth_error vert i = Some (Fin x, Fin y) -> exists si bi, nth_error s i = Some si /\ nth_error b i = Some bi /\
      (si = true <-> ~ on_side (ring_segments node) (x, y) /\ odd_many (crosses (x, y)) true (ring_segments node)) /\
      (on_side (ring_segments node) (x, y) -> bi = true).
Proof.
  intros F T S. apply (shapely_edges make contains within ftol node None node [] vert F T (proj1 S)); [discriminate| |apply single_well_formed, S].
  rewrite side_pairs_ring by (apply node_nonempty, S). apply ring_one_node, S.
Qed.

(** * Matplotlib *)
Lemma path_nonempty r rs : r <> [] -> flat_map ring_path (r :: rs) <> [].
Proof. destruct r; [congruence|discriminate]. Qed.
Lemma mpl_never cp ftol node edge vert s b i r rs : (forall es, edge = Some es -> valid_edges node es) -> 2 <= length node ->
  edges_to_rings node (side_pairs node edge) = Ok (r :: rs) ->
  inpoly2_with (inpoly_matplotlib cp) ftol node edge vert = Ok (s, b) -> nth_error b i = Some true -> nth_error s i = Some false.
Proof.
  intros V L R H B. assert (V' : edge_ok node edge) by (destruct edge; cbn; [apply V; reflexivity|lia]). assert (N : node <> []) by (intros ->; cbn in L; lia).
  destruct (flat_map ring_path (r :: rs)) as [|c path] eqn:PA.
  - exfalso. destruct (rings_ok node _ _ (fun v => side_ends node edge v V') R) as (rings & E & D). destruct rings as [|x rings]; [discriminate|].
    injection E as -> ->. destruct D as (_ & _ & D & _). destruct x as [|v x]; [apply D; left; reflexivity|discriminate].
  - rewrite (with_run _ ftol node edge vert (fun q => let inside := cp (c :: path) 0%Q q in (inside, cp (c :: path) ftol q && negb inside)) N V') in H.
    + injection H as <- <-. rewrite nth_error_map in B |- *. destruct (nth_error vert i) as [p|]; [|discriminate]. cbn [option_map] in *.
      destruct (finite_pt p); [|discriminate]. cbn [fst snd] in *. injection B as B. destruct (cp (c :: path) 0%Q (to_xy p)); [rewrite andb_false_r in B; discriminate|reflexivity].
    + intros v. unfold inpoly_matplotlib. rewrite R, PA. reflexivity.
Qed.
Lemma mpl_union cp ftol node edge vert s b i x y rs : union_rule cp -> 2 <= length node -> (forall es, edge = Some es -> valid_edges node es) ->
  edges_to_rings node (side_pairs node edge) = Ok rs -> rs <> [] ->
  inpoly2_with (inpoly_matplotlib cp) ftol node edge vert = Ok (s, b) -> nth_error vert i = Some (Fin x, Fin y) -> ~ on_side (sides node edge) (x, y) ->
  exists si, nth_error s i = Some si /\ (si = true <-> exists r, In r rs /\ in_ring r (x, y)).
Proof.
  intros U L V R NR H I O. assert (V' : edge_ok node edge) by (destruct edge; cbn; [apply V; reflexivity|lia]). assert (N : node <> []) by (intros ->; cbn in L; lia).
  destruct (flat_map ring_path rs) as [|c path] eqn:PA.
  - exfalso. destruct (rings_ok node _ _ (fun v => side_ends node edge v V') R) as (rings & E & D). destruct rings as [|z rings]; [subst; apply NR; reflexivity|].
    subst rs. destruct D as (_ & _ & D & _). destruct z as [|v z]; [apply D; left; reflexivity|discriminate].
  - rewrite (with_run _ ftol node edge vert (fun q => let inside := cp (c :: path) 0%Q q in (inside, cp (c :: path) ftol q && negb inside)) N V') in H
      by (intros v; unfold inpoly_matplotlib; rewrite R, PA; reflexivity).
    injection H as <- <-. eexists. split; [apply (nth_error_fin (fun q => fst (let inside := cp (c :: path) 0%Q q in (inside, cp (c :: path) ftol q && negb inside))) false vert i x y I)|].
    cbn [fst]. rewrite <- PA. apply (U rs (x, y)). apply no_ring_on. destruct (rings_sides node edge _ V' R (x, y)) as (_ & Y). rewrite Y. apply bool_not. rewrite <- on_side_b. exact O.
Qed.
Lemma mpl_ring cp ftol node vert s b i x y : union_rule cp -> 3 <= length node ->
  inpoly2_with (inpoly_matplotlib cp) ftol node None vert = Ok (s, b) -> nth_error vert i = Some (Fin x, Fin y) -> ~ on_side (ring_segments node) (x, y) ->
  exists si, nth_error s i = Some si /\ (si = true <-> odd_many (crosses (x, y)) true (ring_segments node)).
Proof.
  intros U L H I O. assert (N := node_nonempty node L).
  destruct (mpl_union cp ftol node None vert s b i x y [node] U) as (si & S & A); try assumption; try discriminate; [lia| |].
  - rewrite side_pairs_ring by exact N. apply ring_one_node, L.
  - exists si. split; [exact S|]. rewrite A. split; [intros (r & [<-|[]] & X); exact X|]. intros X. exists node. split; [left; reflexivity|exact X].
Qed.
(** Boundary queries of the two kernels count as inside. *)
Lemma kernels_bnds_stat k ftol node edge vert s b i : k = raycasting \/ k = compiled ->
  inpoly2_with k ftol node edge vert = Ok (s, b) -> nth_error b i = Some true -> nth_error s i = Some true.
Proof.
  intros K H B.
  assert (X : exists g, (forall v, k ftol node (side_pairs node edge) v = Ok (map g v)) /\ forall q, snd (g q) = true -> fst (g q) = true).
  { destruct K as [->| ->].
    - exists (rc_answer ftol node (side_pairs node edge)). split; [intros v; unfold raycasting; rewrite raycasting_map; reflexivity|]. intros q. unfold rc_answer.
      destruct (_ || _); [discriminate|]. destruct (in_bbox _ _ _); [|discriminate]. rewrite rc_point_spec. cbn. intros ->. reflexivity.
    - eexists. split; [intros v; unfold compiled; rewrite (fk_kernel ftol node _ v); reflexivity|]. intros q. cbn. rewrite fk_point_spec. cbn. intros ->. reflexivity. }
  destruct X as (g & G & A).
  assert (Z : forall n, nth_error (repeat false n) i <> Some true).
  { intros n Y. apply nth_error_In in Y. apply repeat_spec in Y. discriminate. }
  destruct node as [|p node]; [cbn in H; injection H as <- <-; destruct (Z _ B)|].
  assert (C : edge_ok (p :: node) edge \/ ~ edge_ok (p :: node) edge).
  { destruct edge as [es|]; cbn [edge_ok]; [|lia]. destruct (forallb (fun e => (0 <=? fst e)%Z && (0 <=? snd e)%Z && (fst e <? Z.of_nat (length (p :: node)))%Z && (snd e <? Z.of_nat (length (p :: node)))%Z) es) eqn:F;
      [left; apply valid_edges_iff, F|right; intros Y; apply valid_edges_iff in Y; congruence]. }
  destruct C as [C|C].
  - rewrite (with_run k ftol _ edge vert g) in H by (try discriminate; assumption). injection H as <- <-. rewrite nth_error_map in *.
    destruct (nth_error vert i) as [q|]; [|discriminate]. cbn in *. destruct (finite_pt q); [|discriminate]. f_equal. apply A. congruence.
  - exfalso. destruct edge as [es|]; cbn [edge_ok] in C.
    + unfold inpoly2_with in H. destruct (forallb _ es) eqn:F; [apply C, valid_edges_iff, F|discriminate].
    + unfold inpoly2_with in H. destruct (Nat.ltb_spec (length (p :: node)) 2); [|lia]. injection H as <- <-. exact (Z _ B).
Qed.

(** * Engines that meet the contracts *)
Definition ref_make (outer : list xy) (holes : list (list xy)) : res (list xy * list (list xy)) := Ok (outer, holes).
Definition ref_contains (p : list xy * list (list xy)) (q : xy) : bool :=
  negb (existsb (rc_hit 0 q) (flat_map ring_segments (fst p :: snd p))) && par (rc_tog 0 q) (ring_segments (fst p)) &&
  forallb (fun h => negb (par (rc_tog 0 q) (ring_segments h))) (snd p).
Definition ref_within (p : list xy * list (list xy)) (f : Q) (q : xy) : bool := existsb (rc_hit 0 q) (flat_map ring_segments (fst p :: snd p)).
Lemma ref_faithful : faithful ref_make ref_contains ref_within.
Proof.
  intros outer holes _. exists (outer, holes). split; [reflexivity|]. intros q. split.
  - unfold ref_contains. cbn [fst snd]. rewrite !andb_true_iff, negb_true_iff, no_ring_on, in_ring_par, forallb_forall, and_assoc.
    apply and_iff_compat_l, and_iff_compat_l. split; intros H h I; specialize (H h I).
    + rewrite in_ring_par. apply negb_true_iff in H. congruence.
    + rewrite in_ring_par in H. apply negb_true_iff, bool_not, H.
  - intros f H _. apply on_rings_b, H.
Qed.
Fixpoint parts (path : list (xy * code)) (cur : list xy) : list (list xy) :=
  match path with
  | [] => []
  | (p, MoveTo) :: t => parts t [p]
  | (p, LineTo) :: t => parts t (cur ++ [p])
  | (_, ClosePoly) :: t => cur :: parts t []
  end.
Definition ref_points (path : list (xy * code)) (f : Q) (q : xy) : bool :=
  existsb (fun r => par (rc_tog 0 q) (ring_segments r)) (parts path []) ||
  (Qltb 0 f && existsb (rc_hit 0 q) (flat_map ring_segments (parts path []))).
Lemma parts_lines l p rest : forall cur, parts (map (fun q => (q, LineTo)) l ++ (p, ClosePoly) :: rest) cur = (cur ++ l) :: parts rest [].
Proof. induction l as [|x l IH]; intros cur; cbn; [rewrite app_nil_r; reflexivity|]. rewrite IH, <- app_assoc. reflexivity. Qed.
Lemma parts_closed rings : parts (flat_map closed_part rings) [] = filter (fun r => negb (length r =? 0)) rings.
Proof.
  induction rings as [|[|p r] rings IH]; [reflexivity|exact IH|]. cbn [flat_map closed_part filter length Nat.eqb negb]. rewrite <- app_comm_cons. cbn [parts].
  rewrite <- app_assoc. cbn [app]. rewrite parts_lines, IH. reflexivity.
Qed.
Lemma ref_union : union_rule ref_points.
Proof.
  intros rings q _. unfold ref_points. rewrite parts_closed. replace (Qltb 0 0) with false by reflexivity. rewrite andb_false_l, orb_false_r, existsb_exists.
  split; intros (r & I & H).
  - apply filter_In in I. exists r. split; [tauto|]. apply in_ring_par, H.
  - apply in_ring_par in H. exists r. split; [|exact H]. apply filter_In. split; [exact I|]. destruct r; [discriminate H|reflexivity].
Qed.
(** * A box with a hole *)
Lemma rect_segs a b c d : ring_segments (rect a b c d) = [((a, b), (c, b)); ((c, b), (c, d)); flip ((a, d), (c, d)); flip ((a, b), (a, d))].
Proof. reflexivity. Qed.
Lemma rect_on a b c d q : (a < c)%Q -> (b < d)%Q -> (on_ring (rect a b c d) q <->
  (a <= fst q <= c /\ b <= snd q <= d /\ (fst q == a \/ fst q == c \/ snd q == b \/ snd q == d))%Q).
Proof.
  intros H K. unfold on_ring. rewrite rect_segs. split.
  - intros (s & I & O). cbn [In] in I. destruct I as [<-|[<-|[<-|[<-|[]]]]]; rewrite ?on_seg_flip in O;
      first [apply on_seg_h in O|apply on_seg_v in O]; try assumption; destruct O as (O1 & O2); repeat split; try lra; rewrite O2; lra || (left; lra) || idtac.
    all: try (right; right; left; exact O2). all: try tauto.
  - intros (X & Y & [E|[E|[E|E]]]).
    + exists (flip ((a, b), (a, d))). split; [cbn; tauto|]. apply on_seg_flip, on_seg_v; tauto.
    + exists ((c, b), (c, d)). split; [cbn; tauto|]. apply on_seg_v; tauto.
    + exists ((a, b), (c, b)). split; [cbn; tauto|]. apply on_seg_h; tauto.
    + exists (flip ((a, d), (c, d))). split; [cbn; tauto|]. apply on_seg_flip, on_seg_h; tauto.
Qed.
Lemma rect_in a b c d q : (a < c)%Q -> (b < d)%Q -> (in_ring (rect a b c d) q <-> (a <= fst q < c /\ b <= snd q < d)%Q).
Proof.
  intros H K. rewrite in_ring_par, rect_segs. cbn [par fold_right]. change (fold_right _ _ _) with false.
  assert (T : forall s (P : Prop), (crosses q s <-> P) -> (rc_tog 0 q s = true <-> P)) by (intros s P E; rewrite rc_tog0; exact E).
  assert (F : forall s, rc_tog 0 q (flip s) = rc_tog 0 q s) by (intros; apply rc_tog_flip). rewrite !F.
  assert (Z1 : rc_tog 0 q ((a, b), (c, b)) = false) by (apply bool_not; rewrite rc_tog0; apply crosses_h).
  assert (Z2 : rc_tog 0 q ((a, d), (c, d)) = false) by (apply bool_not; rewrite rc_tog0; apply crosses_h). rewrite Z1, Z2.
  pose proof (T _ _ (crosses_v q c b d)) as C1. pose proof (T _ _ (crosses_v q a b d)) as C2.
  destruct (rc_tog 0 q ((c, b), (c, d))), (rc_tog 0 q ((a, b), (a, d))); cbn [xorb]; split; intros X; try discriminate; try reflexivity.
  - exfalso. destruct C2 as (C2 & _). specialize (C2 eq_refl). lra.
  - destruct C1 as (C1 & _). specialize (C1 eq_refl). split; [|lra]. split; [|lra]. destruct (Qlt_le_dec (fst q) a) as [Y|Y]; [|exact Y]. exfalso.
    enough (false = true) by discriminate. apply C2. lra.
  - exfalso. destruct C2 as (C2 & _). specialize (C2 eq_refl). enough (false = true) by discriminate. apply C1. lra.
  - exfalso. enough (false = true) by discriminate. apply C1. lra.
Qed.
Lemma rect_simple a b c d : (a < c)%Q -> (b < d)%Q -> simple (rect a b c d).
Proof.
  intros H K. split; [cbn; lia|]. split.
  - rewrite rect_segs. intros sg [<-|[<-|[<-|[<-|[]]]]]; unfold same_place; cbn; lra.
  - rewrite rect_segs. intros i j si sj q L Hi Hj Oi Oj.
    destruct i as [|[|[|i]]]; destruct j as [|[|[|[|j]]]]; try lia; cbn in Hi, Hj; try (destruct j; discriminate Hj); injection Hi as <-; injection Hj as <-;
      rewrite ?on_seg_flip in Oi; rewrite ?on_seg_flip in Oj;
      first [apply on_seg_h in Oi|apply on_seg_v in Oi]; first [apply on_seg_h in Oj|apply on_seg_v in Oj]; try assumption; try lra.
    all: first [left; split; [reflexivity|unfold same_place; cbn; lra]|right; repeat split; cbn; lra].
Qed.
Lemma boxes_well_formed a b c d a' b' c' d' : (a < a')%Q -> (a' < c')%Q -> (c' < c)%Q -> (b < b')%Q -> (b' < d')%Q -> (d' < d)%Q ->
  well_formed (rect a b c d) [rect a' b' c' d'].
Proof.
  intros H1 H2 H3 H4 H5 H6. split; [|split].
  - intros r [<-|[<-|[]]]; apply rect_simple; lra.
  - intros i j ri rj q L Hi Hj Oi Oj. destruct j as [|[|j]]; [lia| |destruct j; discriminate]. destruct i; [|lia]. cbn in Hi, Hj. injection Hi as <-. injection Hj as <-.
    apply rect_on in Oi; [|lra|lra]. apply rect_on in Oj; [|lra|lra]. lra.
  - intros q _. split.
    + intros h [<-|[]] X. apply rect_in in X; [|lra|lra]. apply rect_in; lra.
    + intros i j hi hj D Hi Hj. destruct i as [|i]; [|destruct i; discriminate]. destruct j as [|j]; [congruence|destruct j; discriminate].
Qed.
Definition box_nodes : list xy := (rect 0 0 6 6 ++ rect 2 2 4 4)%list.
Definition box_edges : list (Z * Z) := [(0, 1); (1, 2); (2, 3); (3, 0); (4, 5); (5, 6); (6, 7); (7, 4)]%Z.
Lemma box_rings : edges_to_rings box_nodes (side_pairs box_nodes (Some box_edges)) = Ok [rect 0 0 6 6; rect 2 2 4 4].
Proof. vm_compute. reflexivity. Qed.
Lemma box_valid : valid_edges box_nodes box_edges.
Proof. intros e I. unfold box_edges in I. cbn [In] in I. repeat (destruct I as [<-|I]; [cbn; lia|]). destruct I. Qed.
Lemma box_off : ~ on_side (sides box_nodes (Some box_edges)) (3, 3)%Q.
Proof. rewrite on_side_b. vm_compute. discriminate. Qed.
Lemma mpl_hole cp ftol : union_rule cp -> exists s b,
  inpoly2_with (inpoly_matplotlib cp) ftol box_nodes (Some box_edges) [(Fin 3, Fin 3)%Q] = Ok (s, b) /\ s = [true].
Proof.
  intros U. assert (N : box_nodes <> []) by discriminate.
  set (path := flat_map ring_path [rect 0 0 6 6; rect 2 2 4 4]).
  set (g := fun q => let inside := cp path 0%Q q in (inside, cp path ftol q && negb inside)).
  assert (R := with_run (inpoly_matplotlib cp) ftol box_nodes (Some box_edges) [(Fin 3, Fin 3)%Q] g N box_valid).
  rewrite R; clear R.
  - eexists. eexists. split; [reflexivity|]. cbn [map]. change (finite_pt (Fin 3, Fin 3)%Q) with true. f_equal. change (to_xy (Fin 3, Fin 3)%Q) with (3, 3)%Q. unfold g. cbn [fst].
    apply (U [rect 0 0 6 6; rect 2 2 4 4] (3, 3)%Q).
    + intros r [<-|[<-|[]]]; rewrite rect_on; cbn; lra.
    + exists (rect 0 0 6 6). split; [left; reflexivity|]. apply rect_in; cbn; lra.
  - intros v. unfold inpoly_matplotlib. rewrite box_rings. reflexivity.
Qed.
Lemma rc_hole : inpoly2_with raycasting 0 box_nodes (Some box_edges) [(Fin 3, Fin 3)%Q] = Ok ([false], [false]) /\
  inpoly2_with compiled 0 box_nodes (Some box_edges) [(Fin 3, Fin 3)%Q] = Ok ([false], [false]).
Proof. split; vm_compute; reflexivity. Qed.
(** The number of queries changes the answer. *)
Definition many : setting := {| have_shapely := true; have_mpl := false; have_compiled := false; method_env := "" |}.
Lemma count_matters {P} (make : list xy -> list (list xy) -> res P) contains within mpl : faithful make contains within ->
  let D := dispatch (inpoly_shapely P make contains within) mpl many in
  inpoly2_with D 0 (rect 0 0 6 6) None [(Fin 6, Fin 3)%Q] = Ok ([true], [true]) /\
  exists s b, inpoly2_with D 0 (rect 0 0 6 6) None (repeat (Fin 6, Fin 3)%Q 1000) = Ok (s, b) /\ nth_error s 0 = Some false /\ nth_error b 0 = Some true.
Proof.
  intros F D. split; [vm_compute; reflexivity|].
  assert (E : inpoly2_with D 0 (rect 0 0 6 6) None (repeat (Fin 6, Fin 3)%Q 1000) = inpoly2_with (inpoly_shapely P make contains within) 0 (rect 0 0 6 6) None (repeat (Fin 6, Fin 3)%Q 1000)).
  { unfold inpoly2_with at 1 2. change (length (rect 0 0 6 6) <? 2) with false. cbv iota. destruct (existsb _ _); [|reflexivity].
    unfold D, dispatch, select_method.
    match goal with |- context [Datatypes.length (map to_xy ?u)] => assert (L : Datatypes.length (map to_xy u) = 1000) by (vm_compute; reflexivity); rewrite L end. reflexivity. }
  rewrite E. destruct (shapely_ring make contains within 0 (rect 0 0 6 6) (repeat (Fin 6, Fin 3)%Q 1000) F) as (s & b & X & Y); [lra|apply rect_simple; lra|].
  exists s, b. split; [exact X|]. destruct (Y 0 6%Q 3%Q) as (si & bi & -> & -> & Z1 & Z2); [reflexivity|].
  assert (O : on_side (ring_segments (rect 0 0 6 6)) (6, 3)%Q) by (apply on_side_b; vm_compute; reflexivity).
  rewrite (Z2 O). split; [|reflexivity]. f_equal. apply bool_not. intros W. apply Z1 in W. tauto.
Qed.
(** Boundary points that count as outside. *)
Lemma shapely_boundary {P} (make : list xy -> list (list xy) -> res P) contains within ftol node q : faithful make contains within -> (0 <= ftol)%Q -> simple node ->
  on_ring node q -> inpoly2_with (inpoly_shapely P make contains within) ftol node None [(Fin (fst q), Fin (snd q))] = Ok ([false], [true]).
Proof.
  intros F T S O. destruct (shapely_ring make contains within ftol node [(Fin (fst q), Fin (snd q))] F T S) as (s & b & X & Y).
  assert (LS : length s = 1 /\ length b = 1).
  { destruct (shapely_answers make contains within ftol node None node [] F T) as (g & K & _); [cbn; destruct S; lia| |apply single_well_formed, S|].
    - rewrite side_pairs_ring by (apply node_nonempty, S). apply ring_one_node, S.
    - rewrite (with_run _ ftol node None _ g) in X; [injection X as <- <-; split; reflexivity|apply node_nonempty, S|cbn; destruct S; lia|exact K]. }
  rewrite X. destruct (Y 0 (fst q) (snd q) eq_refl) as (si & bi & H1 & H2 & Z1 & Z2). destruct q as [x y]. cbn [fst snd] in *.
  destruct s as [|s0 [|]]; try (cbn in LS; lia). destruct b as [|b0 [|]]; try (cbn in LS; lia). cbn in H1, H2. injection H1 as ->. injection H2 as ->.
  rewrite (Z2 O). replace si with false; [reflexivity|]. symmetry. apply bool_not. intros W. apply Z1 in W. tauto.
Qed.
Lemma mpl_boundary : inpoly2_with (inpoly_matplotlib ref_points) (1 # 10) (rect 0 0 6 6) None [(Fin 6, Fin 3)%Q] = Ok ([false], [true]) /\
  on_ring (rect 0 0 6 6) (6, 3)%Q.
Proof. split; [vm_compute; reflexivity|]. apply rect_on; cbn; lra. Qed.
Lemma settled_pointwise {P} (make : list xy -> list (list xy) -> res P) contains within cp e ftol node edge : settled e (length (side_pairs node edge)) ->
  exists f, (forall p, ~ finite_point p -> f p = (false, false)) /\
  forall vert s b, inpoly2_with (dispatch (inpoly_shapely P make contains within) (inpoly_matplotlib cp) e) ftol node edge vert = Ok (s, b) ->
    s = map (fun p => fst (f p)) vert /\ b = map (fun p => snd (f p)) vert.
Proof. intros S. apply with_queried, dispatch_queried; [exact S|apply shapely_queried|apply mpl_queried]. Qed.
Lemma ring_one_sides (node : list xy) : 3 <= length node -> edges_to_rings node (side_pairs node None) = Ok [node].
Proof. intros L. rewrite side_pairs_ring by (apply node_nonempty, L). apply ring_one_node, L. Qed.
Lemma mpl_boundary_refuted : exists cp node q, union_rule cp /\ simple node /\ on_ring node q /\
  inpoly2_with (inpoly_matplotlib cp) (1 # 10) node None [(Fin (fst q), Fin (snd q))] = Ok ([false], [true]).
Proof.
  exists ref_points, (rect 0 0 6 6), (6, 3)%Q. split; [exact ref_union|]. split; [apply rect_simple; lra|]. split; apply mpl_boundary.
Qed.
Lemma hole_disagree cp : union_rule cp ->
  (exists b, inpoly2_with (inpoly_matplotlib cp) 0 box_nodes (Some box_edges) [(Fin 3, Fin 3)%Q] = Ok ([true], b)) /\
  inpoly2_with raycasting 0 box_nodes (Some box_edges) [(Fin 3, Fin 3)%Q] = Ok ([false], [false]).
Proof.
  intros U. split; [|apply rc_hole]. destruct (mpl_hole cp 0 U) as (s & b & H & ->). exists b. exact H.
Qed.

(** * Edges that form no rings *)
Lemma fallback_both P (make : list xy -> list (list xy) -> res P) contains within cp ftol node E vert : (exists v, In v (end_list E) /\ degree E v <> 2) ->
  inpoly_shapely P make contains within ftol node E vert = raycasting ftol node E vert /\ inpoly_matplotlib cp ftol node E vert = raycasting ftol node E vert.
Proof. intros H. unfold inpoly_shapely, inpoly_matplotlib. rewrite (rings_refused' node E H). split; reflexivity. Qed.
