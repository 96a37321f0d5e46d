(** Proofs about set operations on doubles. *)
From Coq Require Import List Arith Bool ZArith Lia Reals Lra SpecFloat.
From Flocq Require Import Core IEEE754.BinarySingleNaN.
From Verif Require Import Util M_Base M_FixMesh M_QualF M_Ieee M_DensifyF M_SetF S_Double S_SetF P_Double P_Ieee.
From Verif Require P_PipF.
Import ListNotations.
Open Scope R_scope.

(** * Order *)
(** Doubles with infinities on the line. *)
Definition ext (x : spec_float) : R := match x with S754_infinity s => if s then - (2 * bpow radix2 1024) else 2 * bpow radix2 1024 | _ => val x end.
Lemma number_case x : number x -> finite_double x \/ exists s, x = S754_infinity s.
Proof. intros [V N]. destruct x as [s|s| |s m e]; try congruence; [left; split; reflexivity|right; eauto|left; split; [exact V|reflexivity]]. Qed.
Lemma finite_below x : finite_double x -> Rabs (val x) < bpow radix2 1024.
Proof. intros [V F]. change (val x) with (SF2R radix2 x). rewrite <- (B2SF_SF2B 53 1024 x V), SF2R_B2SF. apply abs_B2R_lt_emax. Qed.
Lemma ext_fin x : finite_double x -> ext x = val x. Proof. intros [_ F]. destruct x; try discriminate; reflexivity. Qed.
Lemma ltb_ext x y : number x -> number y -> SFltb x y = true <-> ext x < ext y.
Proof.
  intros NX NY. pose proof (bpow_gt_0 radix2 1024) as P. destruct (number_case x NX) as [FX|[s ->]], (number_case y NY) as [FY|[t ->]].
  - rewrite !ext_fin by assumption. apply ltb_val; assumption.
  - destruct (fin_ltb_inf x t FX) as [-> _]. rewrite ext_fin by assumption. pose proof (finite_below x FX) as B. apply Rabs_def2 in B. destruct t; cbn [ext negb]; split; intros; try discriminate; try reflexivity; lra.
  - destruct (fin_ltb_inf y s FY) as [_ ->]. rewrite (ext_fin y) by assumption. pose proof (finite_below y FY) as B. apply Rabs_def2 in B. destruct s; cbn [ext]; split; intros; try discriminate; try reflexivity; lra.
  - destruct s, t; cbn; split; intros; try discriminate; try reflexivity; lra.
Qed.
Lemma leb_ext x y : number x -> number y -> SFleb x y = true <-> ext x <= ext y.
Proof.
  intros NX NY. pose proof (bpow_gt_0 radix2 1024) as P. destruct (number_case x NX) as [FX|[s ->]], (number_case y NY) as [FY|[t ->]].
  - rewrite !ext_fin by assumption. apply P_PipF.leb_val; assumption.
  - rewrite ext_fin by assumption. pose proof (finite_below x FX) as B. apply Rabs_def2 in B. destruct FX as [_ FX]. destruct x; try discriminate; destruct t; cbn [ext]; split; intros; try discriminate; try reflexivity; lra.
  - rewrite (ext_fin y) by assumption. pose proof (finite_below y FY) as B. apply Rabs_def2 in B. destruct FY as [_ FY]. destruct y; try discriminate; destruct s; cbn [ext]; split; intros; try discriminate; try reflexivity; lra.
  - destruct s, t; cbn; split; intros; try discriminate; try reflexivity; lra.
Qed.
Lemma opp_number x : number x -> number (SFopp x) /\ ext (SFopp x) = - ext x.
Proof.
  intros N. destruct (number_case x N) as [F|[s ->]].
  - destruct (opp_double x F) as [F' V]. rewrite !ext_fin by assumption. split; [|exact V]. split; [apply F'|]. intros E. rewrite E in F'. destruct F' as [_ F']. discriminate.
  - split; [split; [reflexivity|discriminate]|]. destruct s; cbn; lra.
Qed.
Lemma sf_opp_opp x : SFopp (SFopp x) = x. Proof. destruct x as [[]|[]| |[] m e]; reflexivity. Qed.
(** * Minima and maxima over lists *)
Lemma fold_min mn : min_contract mn -> forall r a, number a -> Forall number r -> number (fold_left mn r a) /\ forall c, ext (fold_left mn r a) < c <-> some (fun v => ext v < c) (a :: r).
Proof.
  intros C. induction r as [|b r IH]; intros a NA NR; [split; [exact NA|intros c; cbn; tauto]|]. inversion NR as [|? ? NB NR']; subst. destruct (C a b) as [_ H]. destruct (H NA NB) as (E & L1 & L2).
  assert (NM : number (mn a b)) by (destruct E as [-> | ->]; assumption). apply (leb_ext _ _ NM NA) in L1. apply (leb_ext _ _ NM NB) in L2. cbn [fold_left]. destruct (IH _ NM NR') as [N1 I]. split; [exact N1|]. intros c. rewrite I. cbn [some].
  assert (ext (mn a b) < c <-> ext a < c \/ ext b < c). { split; [destruct E as [-> | ->]; tauto|lra]. } tauto.
Qed.
Lemma fold_max mx : max_contract mx -> forall r a, number a -> Forall number r -> number (fold_left mx r a) /\ forall c, ext (fold_left mx r a) < c <-> every (fun v => ext v < c) (a :: r).
Proof.
  intros C. induction r as [|b r IH]; intros a NA NR; [split; [exact NA|intros c; cbn; tauto]|]. inversion NR as [|? ? NB NR']; subst. destruct (C a b) as [_ H]. destruct (H NA NB) as (E & L1 & L2).
  assert (NM : number (mx a b)) by (destruct E as [-> | ->]; assumption). apply (leb_ext _ _ NA NM) in L1. apply (leb_ext _ _ NB NM) in L2. cbn [fold_left]. destruct (IH _ NM NR') as [N1 I]. split; [exact N1|]. intros c. rewrite I. cbn [every].
  assert (ext (mx a b) < c <-> ext a < c /\ ext b < c). { split; [lra|destruct E as [-> | ->]; tauto]. } tauto.
Qed.
Lemma fold_min' mn : min_contract mn -> forall r a, number a -> Forall number r -> forall c, c < ext (fold_left mn r a) <-> every (fun v => c < ext v) (a :: r).
Proof.
  intros C. induction r as [|b r IH]; intros a NA NR c; [cbn; tauto|]. inversion NR as [|? ? NB NR']; subst. destruct (C a b) as [_ H]. destruct (H NA NB) as (E & L1 & L2).
  assert (NM : number (mn a b)) by (destruct E as [-> | ->]; assumption). apply (leb_ext _ _ NM NA) in L1. apply (leb_ext _ _ NM NB) in L2. cbn [fold_left]. rewrite (IH _ NM NR'). cbn [every].
  assert (c < ext (mn a b) <-> c < ext a /\ c < ext b). { split; [lra|destruct E as [-> | ->]; tauto]. } tauto.
Qed.
Lemma fold_max' mx : max_contract mx -> forall r a, number a -> Forall number r -> forall c, c < ext (fold_left mx r a) <-> some (fun v => c < ext v) (a :: r).
Proof.
  intros C. induction r as [|b r IH]; intros a NA NR c; [cbn; tauto|]. inversion NR as [|? ? NB NR']; subst. destruct (C a b) as [_ H]. destruct (H NA NB) as (E & L1 & L2).
  assert (NM : number (mx a b)) by (destruct E as [-> | ->]; assumption). apply (leb_ext _ _ NA NM) in L1. apply (leb_ext _ _ NB NM) in L2. cbn [fold_left]. rewrite (IH _ NM NR'). cbn [some].
  assert (c < ext (mx a b) <-> c < ext a \/ c < ext b). { split; [destruct E as [-> | ->]; tauto|lra]. } tauto.
Qed.
(** * Trees *)
Lemma dom_ind' (P : dom -> Prop) : (forall f, P (Plain f)) -> (forall l, Forall P l -> P (UnionD l)) -> (forall l, Forall P l -> P (IntersectionD l)) -> (forall l, Forall P l -> P (DifferenceD l)) -> forall d, P d.
Proof.
  intros H1 H2 H3 H4. fix F 1. intros [f|l|l|l]; [apply H1|apply H2|apply H3|apply H4]; revert l; fix G 1; intros [|a r]; constructor; auto.
Qed.
Lemma some_ext {A} (P Q : A -> Prop) l : Forall (fun a => P a <-> Q a) l -> some P l <-> some Q l.
Proof. induction 1; cbn; tauto. Qed.
Lemma every_ext {A} (P Q : A -> Prop) l : Forall (fun a => P a <-> Q a) l -> every P l <-> every Q l.
Proof. induction 1; cbn; tauto. Qed.
Section Sets.
Variables mn mx : spec_float -> spec_float -> spec_float.
Hypothesis Cmin : min_contract mn.
Hypothesis Cmax : max_contract mx.
Variables (x : fpt) (g : spec_float).
Hypothesis NG : number g.
Definition right (d : dom) (v : spec_float) : Prop := number v /\ (ext v < ext g <-> within g x d) /\ (- ext g < ext v <-> off g x d).
Lemma each_right l : Forall (fun d => complete d -> numbers x d -> exists v, eval_f mn mx x d = Ok v /\ right d v) l -> every complete l -> every (numbers x) l ->
  exists vs, each (eval_f mn mx x) l = Ok vs /\ Forall2 right l vs.
Proof.
  induction 1 as [|d l H _ IH]; intros C N; [exists []; split; [reflexivity|constructor]|]. destruct C as [C1 C2], N as [N1 N2]. destruct (H C1 N1) as (v & E & R). destruct (IH C2 N2) as (vs & Es & Rs). exists (v :: vs). cbn [each]. rewrite E. cbn. rewrite Es. split; [reflexivity|constructor; assumption].
Qed.
Lemma right_numbers l vs : Forall2 right l vs -> Forall number vs. Proof. induction 1 as [|? ? ? ? R]; constructor; [apply R|assumption]. Qed.
Lemma right_some l vs : Forall2 right l vs -> (some (fun v => ext v < ext g) vs <-> some (within g x) l) /\ (some (fun v => - ext g < ext v) vs <-> some (off g x) l).
Proof. induction 1 as [|d v l vs (_ & R1 & R2) _ [I1 I2]]; cbn; tauto. Qed.
Lemma right_every l vs : Forall2 right l vs -> (every (fun v => ext v < ext g) vs <-> every (within g x) l) /\ (every (fun v => - ext g < ext v) vs <-> every (off g x) l).
Proof. induction 1 as [|d v l vs (_ & R1 & R2) _ [I1 I2]]; cbn; tauto. Qed.
Lemma opp_numbers vs : Forall number vs -> Forall number (map SFopp vs). Proof. induction 1; cbn; constructor; [apply opp_number|]; assumption. Qed.
Lemma opp_every vs : Forall number vs -> every (fun v => ext v < ext g) (map SFopp vs) <-> every (fun v => - ext g < ext v) vs.
Proof. induction 1 as [|v vs N _ IH]; cbn; [tauto|]. destruct (opp_number v N) as [_ ->]. assert (- ext v < ext g <-> - ext g < ext v) by lra. tauto. Qed.
Lemma opp_some vs : Forall number vs -> some (fun v => - ext g < ext v) (map SFopp vs) <-> some (fun v => ext v < ext g) vs.
Proof. induction 1 as [|v vs N _ IH]; cbn; [tauto|]. destruct (opp_number v N) as [_ ->]. assert (- ext g < - ext v <-> ext v < ext g) by lra. tauto. Qed.
Lemma eval_right : forall d, complete d -> numbers x d -> exists v, eval_f mn mx x d = Ok v /\ right d v.
Proof.
  apply (dom_ind' (fun d => complete d -> numbers x d -> exists v, eval_f mn mx x d = Ok v /\ right d v)).
  - intros [f|] C N; [|destruct N]. exists (f x). split; [reflexivity|]. cbn in N. split; [exact N|]. unfold within, off. cbn [member]. destruct (opp_number _ N) as [NO EO]. rewrite (ltb_ext _ _ N NG), (ltb_ext _ _ NO NG), EO. split; lra.
  - intros l IH [NE C] N. destruct (each_right l IH C N) as (vs & E & R). cbn [eval_f]. rewrite E. cbn. destruct R as [|d v l vs R Rs]; [congruence|]. eexists. split; [reflexivity|]. pose proof (right_numbers _ _ Rs) as Ns. destruct (fold_min mn Cmin vs v (proj1 R) Ns) as [NF F]. split; [exact NF|]. rewrite F, (fold_min' mn Cmin vs v (proj1 R) Ns).
    assert (R2 : Forall2 right (d :: l) (v :: vs)) by (constructor; assumption). split; [apply (right_some _ _ R2)|apply (right_every _ _ R2)].
  - intros l IH [NE C] N. destruct (each_right l IH C N) as (vs & E & R). cbn [eval_f]. rewrite E. cbn. destruct R as [|d v l vs R Rs]; [congruence|]. eexists. split; [reflexivity|]. pose proof (right_numbers _ _ Rs) as Ns. destruct (fold_max mx Cmax vs v (proj1 R) Ns) as [NF F]. split; [exact NF|]. rewrite F, (fold_max' mx Cmax vs v (proj1 R) Ns).
    assert (R2 : Forall2 right (d :: l) (v :: vs)) by (constructor; assumption). split; [apply (right_every _ _ R2)|apply (right_some _ _ R2)].
  - intros l IH [NE C] N. destruct (each_right l IH C N) as (vs & E & R). cbn [eval_f]. rewrite E. cbn. destruct R as [|d v l vs R Rs]; [congruence|]. eexists. split; [reflexivity|]. pose proof (right_numbers _ _ Rs) as Ns. pose proof (opp_numbers _ Ns) as No. destruct (fold_max mx Cmax _ v (proj1 R) No) as [NF F]. split; [exact NF|]. rewrite F, (fold_max' mx Cmax _ v (proj1 R) No).
    cbn [some every]. rewrite (opp_every _ Ns), (opp_some _ Ns). destruct R as (_ & R1 & R2). destruct (right_some _ _ Rs) as [S1 _]. destruct (right_every _ _ Rs) as [_ E2]. unfold within, off in *. cbn [member]. tauto.
Qed.
Theorem sets_right d : complete d -> numbers x d -> exists v, eval_f mn mx x d = Ok v /\ number v /\ (SFltb v g = true <-> within g x d) /\ (SFltb (SFopp v) g = true <-> off g x d).
Proof.
  intros C N. destruct (eval_right d C N) as (v & E & NV & R1 & R2). exists v. split; [exact E|]. split; [exact NV|]. destruct (opp_number v NV) as [NO EO]. rewrite (ltb_ext _ _ NV NG), (ltb_ext _ _ NO NG), EO. split; [exact R1|]. rewrite <- R2. lra.
Qed.
End Sets.

(** * nan *)
Section Nan.
Variables mn mx : spec_float -> spec_float -> spec_float.
Hypothesis Cmin : min_contract mn.
Hypothesis Cmax : max_contract mx.
Variable x : fpt.
Lemma fold_nan op : (forall a b, a = S754_nan \/ b = S754_nan -> op a b = S754_nan) -> forall r a, In S754_nan (a :: r) -> fold_left op r a = S754_nan.
Proof. intros O. induction r as [|b r IH]; intros a I; [destruct I as [I|[]]; exact I|]. cbn [fold_left]. apply IH. destruct I as [->|[->|I]]; [left; apply O; tauto|left; apply O; tauto|right; exact I]. Qed.
Lemma min_nan a b : a = S754_nan \/ b = S754_nan -> mn a b = S754_nan. Proof. apply Cmin. Qed.
Lemma max_nan a b : a = S754_nan \/ b = S754_nan -> mx a b = S754_nan. Proof. apply Cmax. Qed.
Lemma eval_total : forall d, complete d -> exists v, eval_f mn mx x d = Ok v.
Proof.
  assert (E : forall l, Forall (fun d => complete d -> exists v, eval_f mn mx x d = Ok v) l -> every complete l -> exists vs, each (eval_f mn mx x) l = Ok vs /\ length vs = length l).
  { induction 1 as [|d l H _ IH]; intros C; [exists []; split; reflexivity|]. destruct C as [C1 C2]. destruct (H C1) as [v Ev]. destruct (IH C2) as (vs & Es & L). exists (v :: vs). cbn [each]. rewrite Ev. cbn. rewrite Es. cbn. rewrite L. split; reflexivity. }
  apply (dom_ind' (fun d => complete d -> exists v, eval_f mn mx x d = Ok v)).
  - intros [f|] C; [eexists; reflexivity|]. cbn in C. congruence.
  - intros l IH [NE C]. destruct (E l IH C) as (vs & Es & L). cbn [eval_f]. rewrite Es. cbn. destruct vs, l; try discriminate; [congruence|]. eexists. reflexivity.
  - intros l IH [NE C]. destruct (E l IH C) as (vs & Es & L). cbn [eval_f]. rewrite Es. cbn. destruct vs, l; try discriminate; [congruence|]. eexists. reflexivity.
  - intros l IH [NE C]. destruct (E l IH C) as (vs & Es & L). cbn [eval_f]. rewrite Es. cbn. destruct vs, l; try discriminate; [congruence|]. eexists. reflexivity.
Qed.
Theorem sets_nan : forall d, complete d -> some_nan x d -> eval_f mn mx x d = Ok S754_nan.
Proof.
  assert (E : forall l, Forall (fun d => complete d -> some_nan x d -> eval_f mn mx x d = Ok S754_nan) l -> every complete l -> some (some_nan x) l -> exists vs, each (eval_f mn mx x) l = Ok vs /\ In S754_nan vs).
  { induction 1 as [|d l H _ IH]; intros C S; [destruct S|]. destruct C as [C1 C2]. cbn [each]. destruct S as [S|S].
    - rewrite (H C1 S). cbn. assert (T : exists vs, each (eval_f mn mx x) l = Ok vs). { clear - C2. induction l as [|d l IH]; [eexists; reflexivity|]. destruct C2 as [C1 C2]. destruct (eval_total d C1) as [v Ev]. destruct (IH C2) as [vs Es]. cbn [each]. rewrite Ev. cbn. rewrite Es. eexists. reflexivity. } destruct T as [vs ->]. eexists. split; [reflexivity|left; reflexivity].
    - destruct (eval_total d C1) as [v Ev]. rewrite Ev. destruct (IH C2 S) as (vs & Es & I). cbn. rewrite Es. eexists. split; [reflexivity|right; exact I]. }
  apply (dom_ind' (fun d => complete d -> some_nan x d -> eval_f mn mx x d = Ok S754_nan)).
  - intros [f|] _ S; [|destruct S]. cbn in *. rewrite S. reflexivity.
  - intros l IH [_ C] S. destruct (E l IH C S) as (vs & Es & I). cbn [eval_f]. rewrite Es. cbn. destruct vs as [|v vs]; [destruct I|]. cbn. rewrite (fold_nan mn min_nan); [reflexivity|exact I].
  - intros l IH [_ C] S. destruct (E l IH C S) as (vs & Es & I). cbn [eval_f]. rewrite Es. cbn. destruct vs as [|v vs]; [destruct I|]. cbn. rewrite (fold_nan mx max_nan); [reflexivity|exact I].
  - intros l IH [_ C] S. destruct (E l IH C S) as (vs & Es & I). cbn [eval_f]. rewrite Es. cbn. destruct vs as [|v vs]; [destruct I|]. cbn. rewrite (fold_nan mx max_nan); [reflexivity|]. destruct I as [->|I]; [left; reflexivity|right]. apply in_map_iff. exists S754_nan. split; [reflexivity|exact I].
Qed.
End Nan.
(** * Multiscale domains *)
Lemma some_exists {A} (P : A -> Prop) l : some P l <-> exists a, In a l /\ P a.
Proof. induction l as [|a l IH]; cbn; [split; [tauto|intros (a & [] & _)]|]. rewrite IH. split; [intros [H|(b & I & H)]; eauto|intros (b & [->|I] & H); eauto]. Qed.
Lemma every_forall {A} (P : A -> Prop) l : every P l <-> Forall P l.
Proof. induction l as [|a l IH]; cbn; [split; [constructor|tauto]|]. rewrite IH. split; [intros []; constructor; assumption|inversion 1; subst; tauto]. Qed.
Lemma covers_off g x l : every (off g x) (map (fun t => Plain (snd t)) l) <-> Forall (clear g x) l.
Proof. induction l as [|[d [c|]] l IH]; cbn; [split; [constructor|tauto]| |]. - rewrite IH. split; [intros [H1 H2]; constructor; [exists c; cbn; auto|exact H2]|]. inversion 1 as [|? ? (c' & E & H1) H2]; subst. cbn in E. injection E as <-. tauto. - split; [tauto|]. inversion 1 as [|? ? (c' & E & _) _]; discriminate. Qed.
Lemma nests_complete x l : Forall (ready x) l -> every complete (nests_f l) /\ every (numbers x) (nests_f l).
Proof.
  induction 1 as [|s l (C & N & c & E & NC) R [I1 I2]]; [split; exact I|]. cbn [nests_f every complete numbers]. assert (Q : every complete (map (fun t => Plain (snd t)) l) /\ every (numbers x) (map (fun t : dom * option (fpt -> spec_float) => Plain (snd t)) l)). { clear - R. induction R as [|t l (_ & _ & c & E & NC) _ [I1 I2]]; [split; exact I|]. cbn. rewrite E. split; split; try assumption. discriminate. }
  destruct Q as [Q1 Q2]. repeat split; try assumption. discriminate.
Qed.
Lemma nests_within g x l : some (within g x) (nests_f l) <-> owned g x l.
Proof.
  induction l as [|s l IH]; [split; [intros []|intros ([|] & ? & ? & E & _); discriminate]|]. cbn [nests_f some]. rewrite IH. unfold within at 1. cbn [member]. fold (within g x (fst s)). pose proof (covers_off g x l) as K. unfold off in K. rewrite K. split.
  - intros [[H1 H2]|(l1 & t & l2 & -> & H)]; [exists [], s, l; auto|exists (s :: l1), t, l2; split; [reflexivity|exact H]].
  - intros ([|a l1] & t & l2 & E & H); cbn in E; injection E as -> ->; [left; exact H|right; exists l1, t, l2; split; [reflexivity|exact H]].
Qed.
Theorem multiscale_owned mn mx x g l : min_contract mn -> max_contract mx -> number g -> (1 < length l)%nat -> Forall (ready x) l ->
  exists u ns v, multiscale_f l = Ok (u, ns) /\ length ns = length l /\ eval_f mn mx x u = Ok v /\ (SFltb v g = true <-> owned g x l).
Proof.
  intros Cn Cx NG L R. unfold multiscale_f. rewrite (proj2 (Nat.ltb_lt _ _) L). destruct (nests_complete x l R) as [C N]. destruct (sets_right mn mx Cn Cx x g NG (UnionD (nests_f l))) as (v & E & _ & H & _).
  - cbn. split; [|exact C]. destruct l; [cbn in L; lia|discriminate].
  - exact N.
  - exists (UnionD (nests_f l)), (nests_f l), v. split; [reflexivity|]. split; [clear; induction l as [|s l IH]; [reflexivity|cbn; rewrite IH; reflexivity]|]. split; [exact E|]. rewrite H, <- nests_within. reflexivity.
Qed.
Lemma nests_nth : forall l i s, nth_error l i = Some s -> nth_error (nests_f l) i = Some (DifferenceD (fst s :: map (fun t => Plain (snd t)) (skipn (S i) l))).
Proof. induction l as [|a l IH]; intros [|i] s E; try discriminate; [injection E as ->; reflexivity|]. cbn [nests_f nth_error skipn]. apply IH, E. Qed.
(** Below the threshold zero a point has one owner, if each domain lies in its covering. *)
Theorem nests_disjoint g x l i j a b : number g -> SFleb g (S754_zero false) = true -> Forall (fun s => exists c, snd s = Some c /\ number (c x) /\ (within g x (fst s) -> SFltb (c x) (S754_zero false) = true)) l -> (i < j)%nat ->
  nth_error (nests_f l) i = Some a -> nth_error (nests_f l) j = Some b -> within g x a -> within g x b -> False.
Proof.
  intros NG G R IJ EA EB WA WB. assert (LL : length (nests_f l) = length l) by (clear; induction l as [|s l IH]; [reflexivity|cbn; rewrite IH; reflexivity]).
  assert (Bi : (i < length l)%nat) by (rewrite <- LL; apply nth_error_Some; congruence). assert (Bj : (j < length l)%nat) by (rewrite <- LL; apply nth_error_Some; congruence).
  destruct (nth_error l i) as [s|] eqn:Si; [|apply nth_error_None in Si; lia]. destruct (nth_error l j) as [t|] eqn:Sj; [|apply nth_error_None in Sj; lia]. rewrite (nests_nth _ _ _ Si) in EA. rewrite (nests_nth _ _ _ Sj) in EB. injection EA as <-. injection EB as <-.
  unfold within in WA, WB. cbn [member] in WA, WB. destruct WA as [_ WA]. destruct WB as [WB _]. fold (off g x) in WA. pose proof (proj1 (covers_off g x (skipn (S i) l)) WA) as K. rewrite Forall_forall in K, R.
  assert (It : In t (skipn (S i) l)). { rewrite <- (firstn_skipn (S i) l) in Sj. rewrite nth_error_app2 in Sj by (rewrite firstn_length; lia). eapply nth_error_In; exact Sj. } destruct (K t It) as (c & Ec & Hc). destruct (R t (nth_error_In _ _ Sj)) as (c' & Ec' & NC & H). rewrite Ec in Ec'. injection Ec' as <-. specialize (H WB).
  destruct (opp_number _ NC) as [NO EO]. assert (NZ : number (S754_zero false)) by (split; [reflexivity|discriminate]). apply (ltb_ext _ _ NO NG) in Hc. apply (ltb_ext _ _ NC NZ) in H. apply (leb_ext _ _ NG NZ) in G. rewrite EO in Hc. change (ext (S754_zero false)) with 0 in *. lra.
Qed.
(** * numpy's minimum and maximum *)
Theorem minimum_contract : min_contract np_minimum.
Proof.
  intros a b. split; [intros [->| ->]; [reflexivity|destruct a; reflexivity]|]. intros NA NB. unfold np_minimum. assert (IA : is_nan a = false) by (destruct a; try reflexivity; destruct NA; congruence). assert (IB : is_nan b = false) by (destruct b; try reflexivity; destruct NB; congruence). rewrite IA, IB. destruct (SFltb a b) eqn:L.
  - apply (ltb_ext _ _ NA NB) in L. rewrite !leb_ext by assumption. split; [auto|lra].
  - assert (N : ~ ext a < ext b) by (intros H; apply (ltb_ext _ _ NA NB) in H; congruence). rewrite !leb_ext by assumption. split; [auto|lra].
Qed.
Theorem maximum_contract : max_contract np_maximum.
Proof.
  intros a b. split; [intros [->| ->]; [reflexivity|destruct a; reflexivity]|]. intros NA NB. unfold np_maximum. assert (IA : is_nan a = false) by (destruct a; try reflexivity; destruct NA; congruence). assert (IB : is_nan b = false) by (destruct b; try reflexivity; destruct NB; congruence). rewrite IA, IB. destruct (SFltb a b) eqn:L.
  - apply (ltb_ext _ _ NA NB) in L. rewrite !leb_ext by assumption. split; [auto|lra].
  - assert (N : ~ ext a < ext b) by (intros H; apply (ltb_ext _ _ NA NB) in H; congruence). rewrite !leb_ext by assumption. split; [auto|lra].
Qed.
(** * Boxes *)
Lemma ltb_nan_any y : SFltb S754_nan y = false /\ SFltb y S754_nan = false. Proof. split; [reflexivity|destruct y; reflexivity]. Qed.
Theorem py_min_first l : (forall r, l = S754_nan :: r -> py_min_f l = Ok S754_nan) /\
  (forall a r, l = a :: r -> number a -> Forall (fun y => valid_binary 53 1024 y = true) r -> exists m, py_min_f l = Ok m /\ In m l /\ forall y, In y l -> number y -> SFleb m y = true).
Proof.
  split.
  - intros r ->. cbn. f_equal. induction r as [|y r IH]; [reflexivity|]. cbn [fold_left]. rewrite (proj2 (ltb_nan_any y)). exact IH.
  - intros a r -> NA V. cbn [py_min_f]. eexists. split; [reflexivity|]. assert (G : let m := fold_left (fun m y => if SFltb y m then y else m) r a in number m /\ In m (a :: r) /\ forall y, In y (a :: r) -> number y -> ext m <= ext y).
    { revert a NA. induction V as [|b r VB V IH]; intros a NA m; [split; [exact NA|]; split; [left; reflexivity|]; intros y [<-|[]] _; unfold m; cbn [fold_left]; lra|]. unfold m. cbn [fold_left]. destruct (SFltb b a) eqn:L.
      - assert (NB : number b) by (split; [exact VB|intros ->; discriminate]). destruct (IH b NB) as (N & I & B). split; [exact N|]. split; [right; exact I|]. apply (ltb_ext _ _ NB NA) in L. pose proof (B b (or_introl eq_refl) NB). intros y [<-|Iy] Ny; [lra|exact (B y Iy Ny)].
      - destruct (IH a NA) as (N & I & B). split; [exact N|]. split; [destruct I as [I|I]; [left; exact I|right; right; exact I]|]. pose proof (B a (or_introl eq_refl) NA). intros y [<-|[<-|Iy]] Ny; [exact H| |exact (B y (or_intror Iy) Ny)]. assert (~ ext b < ext a) by (intros Q; apply (ltb_ext _ _ Ny NA) in Q; congruence). lra. }
    destruct G as (N & I & B). split; [exact I|]. intros y Iy Ny. apply leb_ext; auto.
Qed.
Theorem py_max_first l : (forall r, l = S754_nan :: r -> py_max_f l = Ok S754_nan) /\
  (forall a r, l = a :: r -> number a -> Forall (fun y => valid_binary 53 1024 y = true) r -> exists m, py_max_f l = Ok m /\ In m l /\ forall y, In y l -> number y -> SFleb y m = true).
Proof.
  split.
  - intros r ->. cbn. f_equal. induction r as [|y r IH]; [reflexivity|]. cbn [fold_left]. rewrite (proj1 (ltb_nan_any y)). exact IH.
  - intros a r -> NA V. cbn [py_max_f]. eexists. split; [reflexivity|]. assert (G : let m := fold_left (fun m y => if SFltb m y then y else m) r a in number m /\ In m (a :: r) /\ forall y, In y (a :: r) -> number y -> ext y <= ext m).
    { revert a NA. induction V as [|b r VB V IH]; intros a NA m; [split; [exact NA|]; split; [left; reflexivity|]; intros y [<-|[]] _; unfold m; cbn [fold_left]; lra|]. unfold m. cbn [fold_left]. destruct (SFltb a b) eqn:L.
      - assert (NB : number b). { split; [exact VB|]. intros ->. rewrite (proj2 (ltb_nan_any a)) in L. discriminate. } destruct (IH b NB) as (N & I & B). split; [exact N|]. split; [right; exact I|]. apply (ltb_ext _ _ NA NB) in L. pose proof (B b (or_introl eq_refl) NB). intros y [<-|Iy] Ny; [lra|exact (B y Iy Ny)].
      - destruct (IH a NA) as (N & I & B). split; [exact N|]. split; [destruct I as [I|I]; [left; exact I|right; right; exact I]|]. pose proof (B a (or_introl eq_refl) NA). intros y [<-|[<-|Iy]] Ny; [exact H| |exact (B y (or_intror Iy) Ny)]. assert (~ ext a < ext b) by (intros Q; apply (ltb_ext _ _ NA Ny) in Q; congruence). lra. }
    destruct G as (N & I & B). split; [exact I|]. intros y Iy Ny. apply leb_ext; auto.
Qed.

(** * Cases *)
Definition n1 : spec_float := S754_finite false 4503599627370496 (-52).
Definition n2 : spec_float := S754_finite false 4503599627370496 (-51).
Definition n3 : spec_float := S754_finite false 6755399441055744 (-51).
Definition n4 : spec_float := S754_finite false 4503599627370496 (-50).
Definition n15 : spec_float := S754_finite false 6755399441055744 (-52).
Definition n0 : spec_float := S754_zero false.
Definition outer (q : fpt) : spec_float := bbox_f n0 n4 n0 n4 (fst q) (snd q).
Definition inner (q : fpt) : spec_float := bbox_f n1 n2 n1 n2 (fst q) (snd q).
Definition broken (q : fpt) : spec_float := bbox_f S754_nan n4 n0 n4 (fst q) (snd q).
Definition two : list (dom * option (fpt -> spec_float)) := [(Plain (Some outer), Some outer); (Plain (Some inner), Some inner)].
Theorem seam : Forall (ready (n1, n15)) two /\ SFltb (outer (n1, n15)) n0 = true /\ SFltb (inner (n1, n15)) n0 = false /\ exists u ns v, multiscale_f two = Ok (u, ns) /\ eval_f np_minimum np_maximum (n1, n15) u = Ok v /\ SFltb v n0 = false.
Proof.
  split; [|split; [vm_compute; reflexivity|split; [vm_compute; reflexivity|]]].
  - assert (Q : number (outer (n1, n15)) /\ number (inner (n1, n15))) by (split; split; vm_compute; congruence). destruct Q. repeat apply Forall_cons; try apply Forall_nil; (split; [cbn; discriminate|]; split; [assumption|]; eexists; split; [reflexivity|assumption]).
  - do 3 eexists. split; [reflexivity|]. split; vm_compute; reflexivity.
Qed.
Theorem lost : complete (UnionD [Plain (Some outer); Plain (Some broken)]) /\ SFltb (outer (n3, n3)) n0 = true /\ eval_f np_minimum np_maximum (n3, n3) (UnionD [Plain (Some outer); Plain (Some broken)]) = Ok S754_nan.
Proof. split; [cbn; repeat split; discriminate|]. split; vm_compute; reflexivity. Qed.
Definition ring : dom := DifferenceD [Plain (Some outer); UnionD [Plain (Some inner); IntersectionD [Plain (Some inner); Plain (Some outer)]]].
Theorem ring_case : number n0 /\ complete ring /\ numbers (n3, n3) ring /\ numbers (n15, n15) ring /\ eval_f np_minimum np_maximum (n3, n3) ring = Ok (SFopp n1) /\ eval_f np_minimum np_maximum (n15, n15) ring = Ok (S754_finite false 4503599627370496 (-53)) /\
  Forall (ready (n3, n3)) two /\ Forall (fun s => exists c, snd s = Some c /\ number (c (n15, n15)) /\ (within n0 (n15, n15) (fst s) -> SFltb (c (n15, n15)) n0 = true)) two.
Proof.
  assert (A : forall q, q = (n3, n3) \/ q = (n15, n15) -> number (outer q) /\ number (inner q)) by (intros q [->| ->]; split; split; vm_compute; congruence). destruct (A _ (or_introl eq_refl)) as [A1 A2]. destruct (A _ (or_intror eq_refl)) as [A3 A4].
  split; [split; [reflexivity|discriminate]|]. split; [cbn; repeat split; discriminate|]. split; [cbn [ring numbers every]; tauto|]. split; [cbn [ring numbers every]; tauto|]. split; [vm_compute; reflexivity|]. split; [vm_compute; reflexivity|]. split.
  - repeat apply Forall_cons; try apply Forall_nil; (split; [cbn; discriminate|]; split; [assumption|]; eexists; split; [reflexivity|assumption]).
  - repeat apply Forall_cons; try apply Forall_nil; (eexists; split; [reflexivity|]; split; [assumption|]; intros H; exact H).
Qed.
(** Only complete domains have a value. *)
Theorem eval_complete mn mx x d : (exists v, eval_f mn mx x d = Ok v) <-> complete d.
Proof.
  split; [|apply eval_total]. assert (E : forall l vs, Forall (fun d => (exists v, eval_f mn mx x d = Ok v) -> complete d) l -> each (eval_f mn mx x) l = Ok vs -> every complete l /\ length vs = length l).
  { intros l vs F. revert vs. induction F as [|a l H _ IH]; intros vs E; cbn [each] in E; [injection E as <-; split; [exact I|reflexivity]|]. destruct (eval_f mn mx x a) as [v| |] eqn:Ea; cbn [bind] in E; try discriminate. destruct (each (eval_f mn mx x) l) as [ws| |]; cbn [bind] in E; try discriminate. injection E as <-. destruct (IH ws eq_refl) as [C L]. split; [split; [apply H; eauto|exact C]|cbn; rewrite L; reflexivity]. }
  revert d. apply (dom_ind' (fun d => (exists v, eval_f mn mx x d = Ok v) -> complete d)).
  - intros [f|] [v H]; [discriminate|discriminate H].
  - intros l F [v H]. cbn [eval_f] in H. destruct (each (eval_f mn mx x) l) as [vs| |] eqn:Es; cbn [bind] in H; try discriminate. destruct (E l vs F Es) as [C L]. split; [|exact C]. intros ->. destruct vs; [discriminate H|discriminate L].
  - intros l F [v H]. cbn [eval_f] in H. destruct (each (eval_f mn mx x) l) as [vs| |] eqn:Es; cbn [bind] in H; try discriminate. destruct (E l vs F Es) as [C L]. split; [|exact C]. intros ->. destruct vs; [discriminate H|discriminate L].
  - intros l F [v H]. cbn [eval_f] in H. destruct (each (eval_f mn mx x) l) as [vs| |] eqn:Es; cbn [bind] in H; try discriminate. destruct (E l vs F Es) as [C L]. split; [|exact C]. intros ->. destruct vs; [discriminate H|discriminate L].
Qed.
Theorem incomplete_case mn mx x f : complete (UnionD [Plain (Some f)]) /\ ~ complete (UnionD [Plain (Some f); IntersectionD []]) /\ ~ complete (DifferenceD [Plain (Some f); Plain None]) /\
  eval_f mn mx x (UnionD [Plain (Some f); IntersectionD []]) = Raise ValueError /\ eval_f mn mx x (DifferenceD [Plain (Some f); Plain None]) = Raise TypeError.
Proof. cbn. repeat split; try discriminate; intros H; intuition congruence. Qed.
