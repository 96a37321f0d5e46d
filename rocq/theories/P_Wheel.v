(** Proofs about the wheel check. *)
From Coq Require Import List Arith Ascii String ZArith NArith Bool Lia.
From Verif Require Import M_Base M_Writers M_Version M_Wheel S_Writers S_Version S_Wheel P_Version.
Import ListNotations.
Open Scope list_scope.

Lemma has_sub_iff needle : forall s, has_sub needle s = true <-> within needle s.
Proof.
  induction s as [|x r IH]; simpl.
  - destruct (after_prefix needle []) as [q|] eqn:E.
    + split; auto. intros _. apply after_prefix_inv in E. exists [], q. exact E.
    + split; [discriminate|]. intros (a & b & H). symmetry in H. apply app_eq_nil in H. destruct H as [-> H].
      assert (E2 : after_prefix needle (needle ++ b) = Some b) by apply after_prefix_app. rewrite H in E2. congruence.
  - destruct (after_prefix needle (x :: r)) as [q|] eqn:E.
    + split; auto. intros _. apply after_prefix_inv in E. exists [], q. exact E.
    + rewrite IH. split; intros (a & b & H).
      * exists (x :: a), b. now rewrite H.
      * destruct a as [|y a]; [simpl in H; rewrite H, after_prefix_app in E; discriminate|]. inversion H. subst. now exists a, b.
Qed.
Lemma has_sub_not needle s : has_sub needle s = false <-> ~ within needle s.
Proof. rewrite <- has_sub_iff. destruct (has_sub needle s); split; congruence. Qed.

(** * Reading digits *)
Lemma lead_spec : forall s d q, lead_digits s = (d, q) -> s = d ++ q /\ forallb is_digit d = true /\ (forall c, hd_error q = Some c -> is_digit c = false).
Proof.
  induction s as [|x r IH]; simpl; intros d q H.
  - inversion H. repeat split; auto. discriminate.
  - rewrite is_dec_digit in H. destruct (is_digit x) eqn:E.
    + destruct (lead_digits r) as [d' q'] eqn:E2. inversion H. subst. destruct (IH _ _ eq_refl) as (-> & H2 & H3). repeat split; auto. simpl. now rewrite E.
    + inversion H. subst. repeat split; auto. simpl. intros c Hc. now inversion Hc; subst.
Qed.
Lemma lead_app : forall d q, forallb is_digit d = true -> (forall c, hd_error q = Some c -> is_digit c = false) -> lead_digits (d ++ q) = (d, q).
Proof.
  induction d as [|x d IH]; simpl; intros q Hd Hq.
  - destruct q as [|c q]; auto. simpl. rewrite is_dec_digit, (Hq c); auto.
  - apply andb_prop in Hd. destruct Hd as [H1 H2]. rewrite is_dec_digit, H1, IH; auto.
Qed.
Lemma digits_read d : d <> [] -> forallb is_digit d = true -> exists n, read_int d = Some n.
Proof. destruct d; [congruence|]. intros _ H. unfold read_int. rewrite H. eauto. Qed.

Lemma glibc_at_inv s d e z : glibc_at s = Some (d, e, z) -> s = word "GLIBC_" ++ d ++ word "." ++ e ++ z /\
  (exists x, read_int d = Some x) /\ (exists y, read_int e = Some y) /\ (forall c, hd_error z = Some c -> is_digit c = false).
Proof.
  unfold glibc_at. destruct (after_prefix (txt "GLIBC_") s) as [r|] eqn:E1; [|discriminate]. apply after_prefix_inv in E1.
  destruct (lead_digits r) as [a q] eqn:E2. apply lead_spec in E2. destruct E2 as (-> & A2 & A3).
  destruct (after_prefix (txt ".") q) as [q'|] eqn:E3; [|discriminate]. apply after_prefix_inv in E3. subst q.
  destruct (lead_digits q') as [b z'] eqn:E4. apply lead_spec in E4. destruct E4 as (-> & B2 & B3).
  destruct (nonempty a) eqn:N1; [|discriminate]. destruct (nonempty b) eqn:N2; [|discriminate]. simpl. intros H. inversion H. subst. split; auto.
  split; [|split]; auto.
  - apply digits_read; auto. now destruct d.
  - apply digits_read; auto. now destruct e.
Qed.
Lemma glibc_at_app d e z x y : read_int d = Some x -> read_int e = Some y -> (forall c, hd_error z = Some c -> is_digit c = false) ->
  glibc_at (word "GLIBC_" ++ d ++ word "." ++ e ++ z) = Some (d, e, z).
Proof.
  intros Hd He Hz. apply read_int_digits in Hd. apply read_int_digits in He. destruct Hd as [D1 D2], He as [E1 E2].
  unfold glibc_at. change (txt "GLIBC_") with (word "GLIBC_"). rewrite after_prefix_app, lead_app by (auto; simpl; intros c Hc; now inversion Hc).
  change (txt ".") with (word "."). rewrite after_prefix_app, lead_app by auto. rewrite !nonempty_ne by auto. reflexivity.
Qed.

(** * Matches *)
Lemma digit_not_G c : is_digit c = true -> c <> "G"%char.
Proof. intros H ->. discriminate. Qed.
Lemma G_cut : forall d a r s, forallb (fun c => negb (Ascii.eqb c "G")) d = true -> a ++ "G"%char :: r = d ++ s -> exists a', a = d ++ a' /\ s = a' ++ "G"%char :: r.
Proof.
  induction d as [|x d IH]; simpl; intros a r s Hd H; [now exists a|]. apply andb_prop in Hd. destruct Hd as [H1 H2].
  destruct a as [|y a]; simpl in H; inversion H; subst.
  - discriminate.
  - destruct (IH a r s H2 H4) as (a' & -> & ->). now exists a'.
Qed.
Lemma digits_no_G d : forallb is_digit d = true -> forallb (fun c => negb (Ascii.eqb c "G")) d = true.
Proof.
  rewrite !forallb_forall. intros H c Hc. apply negb_true_iff. apply Ascii.eqb_neq. apply digit_not_G. auto.
Qed.
Definition head_text (d e : list ascii) : list ascii := word "LIBC_" ++ d ++ word "." ++ e.
Lemma head_no_G d e : forallb is_digit d = true -> forallb is_digit e = true -> forallb (fun c => negb (Ascii.eqb c "G")) (head_text d e) = true.
Proof.
  intros Hd He. unfold head_text. rewrite !forallb_app, (digits_no_G d Hd), (digits_no_G e He). reflexivity.
Qed.

Lemma findall_spec : forall f s, (List.length s <= f)%nat -> forall v, mentions s v <->
  exists d e, In (d, e) (findall f s) /\ read_int d = Some (fst v) /\ read_int e = Some (snd v).
Proof.
  induction f as [|f IH]; intros s Hf v.
  - destruct s; [|simpl in Hf; lia]. simpl. split.
    + intros (a & d & e & b & H & _). apply (f_equal (@List.length ascii)) in H. rewrite app_length in H. simpl in H. lia.
    + intros (d & e & [] & _).
  - simpl. destruct (glibc_at s) as [[[d e] z]|] eqn:E.
    + apply glibc_at_inv in E. destruct E as (Es & (x & Hx) & (y & Hy) & Hz).
      assert (Lz : (List.length z <= f)%nat). { rewrite Es in Hf. rewrite app_length in Hf. simpl in Hf. rewrite !app_length in Hf. simpl in Hf. rewrite app_length in Hf. lia. }
      specialize (IH z Lz v). split.
      * intros (a & d' & e' & b & Hs & Hd & He & Hb). destruct a as [|c a].
        -- simpl in Hs. exists d', e'. split; auto. left.
           assert (G1 : glibc_at s = Some (d', e', b)) by (rewrite Hs; now apply (glibc_at_app d' e' b (fst v) (snd v))).
           assert (G2 : glibc_at s = Some (d, e, z)) by (rewrite Es; now apply (glibc_at_app d e z x y)). congruence.
        -- assert (K : exists a', z = a' ++ word "GLIBC_" ++ d' ++ word "." ++ e' ++ b).
           { rewrite Es in Hs. change (word "GLIBC_") with ("G"%char :: word "LIBC_") in Hs. cbn [app] in Hs. inversion Hs as [[H1 H2]]. subst c.
             apply read_int_digits in Hx. apply read_int_digits in Hy. destruct Hx as [_ Hx], Hy as [_ Hy].
             destruct (G_cut (head_text d e) a (word "LIBC_" ++ d' ++ word "." ++ e' ++ b) z (head_no_G d e Hx Hy)) as (a' & _ & Ha).
             { unfold head_text. rewrite <- !app_assoc. symmetry. exact H2. }
             exists a'. exact Ha. }
           destruct K as (a' & K). destruct IH as [IH _]. destruct IH as (d2 & e2 & H1 & H2).
           { exists a', d', e', b. auto. }
           exists d2, e2. split; auto. now right.
      * intros (d' & e' & [H|H] & Hd & He).
        -- inversion H. subst d' e'. exists [], d, e, z. auto.
        -- destruct IH as [_ IH]. destruct IH as (a & d2 & e2 & b & H1 & H2); [eauto|]. exists (word "GLIBC_" ++ d ++ word "." ++ e ++ a), d2, e2, b. split; auto.
           rewrite Es, H1, <- !app_assoc. reflexivity.
    + destruct s as [|c s].
      * split; [|intros (d & e & [] & _)]. intros (a & d & e & b & H & _). apply (f_equal (@List.length ascii)) in H. rewrite app_length in H. simpl in H. lia.
      * simpl in Hf. specialize (IH s ltac:(lia) v). rewrite <- IH. split; intros (a & d & e & b & H & Hd & He & Hb).
        -- destruct a as [|c' a].
           ++ simpl in H. change ("G"%char :: "L"%char :: "I"%char :: "B"%char :: "C"%char :: "_"%char :: d ++ "."%char :: e ++ b) with (word "GLIBC_" ++ d ++ word "." ++ e ++ b) in H.
              rewrite H, (glibc_at_app d e b (fst v) (snd v)) in E by auto. discriminate.
           ++ inversion H. subst. exists a, d, e, b. auto.
        -- exists (c :: a), d, e, b. split; auto. now rewrite H.
Qed.
Lemma findall_digits : forall f s d e, In (d, e) (findall f s) -> exists x y, read_int d = Some x /\ read_int e = Some y.
Proof.
  induction f as [|f IH]; simpl; intros s d e H; [easy|]. destruct (glibc_at s) as [[[d' e'] z]|] eqn:E.
  - destruct H as [H|H]; [|eauto]. inversion H. subst. apply glibc_at_inv in E. destruct E as (_ & (x & Hx) & (y & Hy) & _). eauto.
  - destruct s; [easy|]. eauto.
Qed.

(** * The newest version *)
Lemma newer_iff u v : newer_b u v = true <-> newer u v.
Proof. unfold newer_b, newer. rewrite orb_true_iff, andb_true_iff, !N.ltb_lt, N.eqb_eq. reflexivity. Qed.
Lemma newer_trans a b c : newer a b -> newer b c -> newer a c.
Proof. unfold newer. lia. Qed.
Lemma fold_newest : forall r v, let m := fold_left (fun m x => if newer_b x m then x else m) r v in In m (v :: r) /\ forall x, In x (v :: r) -> ~ newer x m.
Proof.
  induction r as [|y r IH]; simpl; intros v.
  - split; auto. intros x [->|[]]. unfold newer. lia.
  - destruct (IH (if newer_b y v then y else v)) as [H1 H2]. destruct (newer_b y v) eqn:E.
    + apply newer_iff in E. split; [destruct H1; auto|]. intros x [<-|[<-|H]].
      * intros N. apply (H2 y); [now left|]. eapply newer_trans; eauto.
      * apply H2. now left.
      * apply H2. now right.
    + split; [destruct H1; auto|]. intros x [<-|[<-|H]].
      * apply H2. now left.
      * intros N. assert (E2 : ~ newer y v) by (rewrite <- newer_iff; congruence). apply (H2 v); [now left|].
        unfold newer in *. lia.
      * apply H2. now right.
Qed.
Lemma mapM_pairs : forall l, (forall d e, In (d, e) l -> exists x y, read_int d = Some x /\ read_int e = Some y) ->
  exists vs, mapM pair_of l = Ok vs /\ forall v, In v vs <-> exists d e, In (d, e) l /\ read_int d = Some (fst v) /\ read_int e = Some (snd v).
Proof.
  induction l as [|[d e] l IH]; simpl; intros H.
  - exists []. split; auto. intros v. split; [easy|]. intros (d & e & [] & _).
  - destruct (H d e (or_introl eq_refl)) as (x & y & Hx & Hy). destruct IH as (vs & E & Hvs); [intros; apply H; now right|].
    unfold pair_of at 1. simpl. rewrite (int_of_read _ _ Hx), (int_of_read _ _ Hy). simpl. rewrite E. simpl. exists ((x, y) :: vs). split; auto.
    intros v. simpl. rewrite Hvs. split.
    + intros [<-|(d' & e' & H1 & H2)]; [exists d, e; auto|]. exists d', e'. auto.
    + intros (d' & e' & [H1|H1] & H2 & H3).
      * inversion H1. subst. left. destruct v. simpl in *. congruence.
      * right. eauto.
Qed.
Lemma newest out : exists r, parse_glibc_symbols out = Ok r /\
  (r = None -> forall v, ~ mentions out v) /\
  (forall v, r = Some v -> mentions out v /\ forall u, mentions out u -> ~ newer u v).
Proof.
  unfold parse_glibc_symbols. destruct (mapM_pairs (findall (List.length out) out)) as (vs & E & Hvs); [apply findall_digits|].
  rewrite E. simpl. assert (M : forall v, mentions out v <-> In v vs) by (intros v; rewrite Hvs; apply findall_spec; lia).
  eexists. split; [reflexivity|]. destruct vs as [|v r].
  - split; [|discriminate]. intros _ v H. apply M in H. destruct H.
  - split; [discriminate|]. intros m H. injection H. clear H. intros <-. destruct (fold_newest r v) as [H1 H2]. split; [now apply M|].
    intros u Hu. apply M in Hu. now apply H2.
Qed.

(** * One wheel *)
Lemma lib_iff w lib : contains_shared_lib w (txt lib) = true <-> member_like lib w.
Proof.
  unfold contains_shared_lib, member_like. rewrite existsb_exists. split; intros (m & H1 & H2); exists m.
  - apply andb_prop in H2. rewrite !has_sub_iff in H2. auto.
  - split; auto. apply andb_true_intro. now rewrite !has_sub_iff.
Qed.
Lemma when_nil b c : when b c = [] <-> b = false.
Proof. destruct b; simpl; split; congruence. Qed.
Lemma check_wheel_ok allowed w out : w_audit w = Some out -> exists c, check_wheel allowed w = (c, Ok tt) /\ (c = [] <-> acceptable allowed w).
Proof.
  intros Ha. unfold check_wheel. rewrite Ha. destruct (newest out) as (r & Er & Hn & Hs). rewrite Er. eexists. split; [reflexivity|].
  set (k := match r with Some v => when (newer_b v allowed) (TooNew v allowed) | None => [] end).
  assert (K : k = [] <-> forall v, mentions out v -> ~ newer v allowed).
  { unfold k. destruct r as [v|].
    - destruct (Hs v eq_refl) as [H1 H2]. rewrite when_nil. rewrite <- not_true_iff_false, newer_iff. split; auto.
      intros H u Hu N. specialize (H2 u Hu). apply H. unfold newer in *. lia.
    - split; auto. intros _ v Hv. destruct (Hn eq_refl v Hv). }
  assert (A : forall a b : list complaint, a ++ b = [] <-> a = [] /\ b = []) by (intros [|? ?] [|? ?]; simpl; split; intuition discriminate).
  rewrite !A, !when_nil, K, !negb_false_iff, !lib_iff, has_sub_iff. unfold acceptable. split.
  - intros ((H1 & _) & H2 & H3 & H4). exists out. auto.
  - intros (o & H0 & H1 & H2 & H3 & H4). assert (o = out) by congruence. subst o.
    split; [split; auto|auto]. apply has_sub_iff in H1. change (word "manylinux") with (txt "manylinux") in H1. rewrite H1. apply andb_false_r.
Qed.
Lemma check_wheel_fails allowed w : w_audit w = None -> exists c, check_wheel allowed w = (c, Raise RuntimeError).
Proof. intros Ha. unfold check_wheel. rewrite Ha. eauto. Qed.

Lemma check_all_spec allowed : forall ws failed, (forall w, In w ws -> w_audit w <> None) ->
  exists rep s, check_all allowed failed ws = (rep, Ok s) /\
    Forall2 (fun w r => fst r = w_name w /\ (snd r = [] <-> acceptable allowed w)) ws rep /\
    (s = 0%Z <-> failed = false /\ forall w, In w ws -> acceptable allowed w) /\ (s = 0 \/ s = 1)%Z.
Proof.
  induction ws as [|w ws IH]; intros failed Ha; simpl.
  - exists [], (if failed then 1 else 0)%Z. split; [reflexivity|]. split; [constructor|]. destruct failed; simpl; split; auto; split; try easy; intros [H _]; discriminate.
  - destruct (w_audit w) as [out|] eqn:Eo; [|exfalso; apply (Ha w); [now left|exact Eo]]. destruct (check_wheel_ok allowed w out Eo) as (c & Ec & Hc). rewrite Ec.
    destruct (IH (failed || match c with [] => false | _ => true end)) as (rep & s & E & H1 & H2 & H3); [intros; apply Ha; now right|].
    rewrite E. exists ((w_name w, c) :: rep), s. split; [reflexivity|]. split; [constructor; auto|]. split; auto. rewrite H2, orb_false_iff. split.
    + intros ((F1 & F2) & F3). split; auto. intros v [<-|Hv]; auto. apply Hc. now destruct c.
    + intros (F1 & F2). split; auto. split; auto. assert (c = []) by (apply Hc, F2; now left). now subst.
Qed.
Lemma check_all_abort allowed : forall pre failed w post, (forall v, In v pre -> w_audit v <> None) -> w_audit w = None ->
  exists rep, check_all allowed failed (pre ++ w :: post) = (rep, Raise RuntimeError) /\ map fst rep = map w_name (pre ++ [w]).
Proof.
  induction pre as [|v pre IH]; intros failed w post Hp Hw; simpl.
  - destruct (check_wheel_fails allowed w Hw) as (c & ->). eexists. split; reflexivity.
  - destruct (w_audit v) as [out|] eqn:Eo; [|exfalso; apply (Hp v); simpl; auto]. destruct (check_wheel_ok allowed v out Eo) as (c & -> & _).
    destruct (IH (failed || match c with [] => false | _ => true end) w post) as (rep & -> & Hr); auto; [intros; apply Hp; now right|].
    eexists. split; [reflexivity|]. simpl. now rewrite Hr.
Qed.

Lemma looked_iff w : is_linux_wheel w = true <-> looked_at w.
Proof. unfold is_linux_wheel, looked_at. rewrite !andb_true_iff, negb_true_iff, has_sub_not, !has_sub_iff. change (txt "linux") with (word "linux"). tauto. Qed.
Lemma no_dot d n : read_int d = Some n -> ~ In "."%char d.
Proof. intros H Hd. apply read_int_digits in H. destruct H as [_ H]. rewrite forallb_forall in H. specialize (H _ Hd). discriminate. Qed.
Lemma main_limit d e x y files : read_int d = Some x -> read_int e = Some y ->
  main (limit_text d e) files = match filter is_linux_wheel files with [] => ([], Ok 1%Z) | ws => check_all (x, y) false ws end.
Proof.
  intros Hd He. unfold main, limit_text. change (d ++ word "." ++ e) with (d ++ "."%char :: e).
  rewrite split_char_app by (eapply no_dot; eauto). rewrite split_char_free by (eapply no_dot; eauto).
  unfold pair_of. cbn [fst snd]. now rewrite (int_of_read _ _ Hd), (int_of_read _ _ He).
Qed.
Lemma verdict d e x y files : read_int d = Some x -> read_int e = Some y -> (forall w, In w files -> looked_at w -> w_audit w <> None) ->
  exists rep s, main (limit_text d e) files = (rep, Ok s) /\ (s = 0 \/ s = 1)%Z /\
    (s = 0%Z <-> (exists w, In w files /\ looked_at w) /\ forall w, In w files -> looked_at w -> acceptable (x, y) w) /\
    Forall2 (fun w r => fst r = w_name w /\ (snd r = [] <-> acceptable (x, y) w)) (filter is_linux_wheel files) rep.
Proof.
  intros Hd He Ha. rewrite (main_limit d e x y files Hd He).
  assert (F : forall w, In w (filter is_linux_wheel files) <-> In w files /\ looked_at w) by (intros w; rewrite filter_In, looked_iff; tauto).
  destruct (filter is_linux_wheel files) as [|w ws] eqn:E.
  - exists [], 1%Z. split; auto. split; auto. split; [|constructor]. split; [discriminate|]. intros [(w & Hw) _]. apply F in Hw. destruct Hw.
  - destruct (check_all_spec (x, y) (w :: ws) false) as (rep & s & H1 & H2 & H3 & H4).
    { intros v Hv. apply F in Hv. destruct Hv. auto. }
    exists rep, s. split; auto. split; auto. split; auto. rewrite H3. split.
    + intros [_ H]. split; [exists w; apply F; now left|]. intros v V1 V2. apply H. apply F. auto.
    + intros [_ H]. split; auto. intros v Hv. apply F in Hv. destruct Hv. auto.
Qed.
Lemma filter_split {A} (f : A -> bool) : forall l pre w post, l = pre ++ w :: post -> f w = true -> filter f l = filter f pre ++ w :: filter f post.
Proof. intros l pre w post -> H. rewrite filter_app. simpl. now rewrite H. Qed.
Lemma aborts d e x y pre w post : read_int d = Some x -> read_int e = Some y -> (forall v, In v pre -> looked_at v -> w_audit v <> None) -> looked_at w -> w_audit w = None ->
  exists rep, main (limit_text d e) (pre ++ w :: post) = (rep, Raise RuntimeError) /\ map fst rep = map w_name (filter is_linux_wheel pre ++ [w]).
Proof.
  intros Hd He Hp Hl Hw. rewrite (main_limit d e x y _ Hd He). rewrite (filter_split is_linux_wheel _ pre w post eq_refl) by now apply looked_iff.
  destruct (check_all_abort (x, y) (filter is_linux_wheel pre) false w (filter is_linux_wheel post)) as (rep & E & Hr); auto.
  { intros v Hv. apply filter_In in Hv. destruct Hv as [V1 V2]. apply looked_iff in V2. auto. }
  exists rep. split; auto. destruct (filter is_linux_wheel pre); exact E.
Qed.
Lemma split_shape c s a b : split_char c s = [a; b] -> s = a ++ c :: b /\ ~ In c a /\ ~ In c b.
Proof.
  destruct (in_dec ascii_dec c s) as [H|H].
  - assert (K : forall l, In c l -> exists u v, l = u ++ c :: v /\ ~ In c u).
    { induction l as [|z l IH]; [easy|]. intros Hl. destruct (ascii_dec z c) as [->|Hn]; [exists [], l; auto|].
      destruct Hl as [->|Hl]; [congruence|]. destruct (IH Hl) as (u & v & -> & Hu). exists (z :: u), v. split; auto. intros [|]; auto. }
    destruct (K s H) as (u & v & -> & Hu). rewrite split_char_app by auto. intros E. inversion E as [[E1 E2]]. subst u.
    destruct (in_dec ascii_dec c v) as [Hv|Hv].
    + destruct (K v Hv) as (u' & v' & -> & Hu'). rewrite split_char_app in E2 by auto. inversion E2 as [[E3 E4]].
      exfalso. destruct v' as [|z v']; simpl in E4; [discriminate|]. destruct (Ascii.eqb z c); [discriminate|]. destruct (split_char c v'); discriminate.
    + rewrite split_char_free in E2 by auto. inversion E2. subst. auto.
  - rewrite split_char_free by auto. discriminate.
Qed.
Lemma bad_limit lim files : ~ (exists a b, lim = limit_text a b /\ ~ In "."%char a /\ ~ In "."%char b) -> main lim files = ([], Ok 1%Z).
Proof.
  intros H. unfold main. destruct (split_char "." lim) as [|a [|b [|]]] eqn:E; auto. exfalso. apply split_shape in E. destruct E as (-> & H1 & H2).
  apply H. exists a, b. auto.
Qed.

(** * Bundled libraries *)
Lemma library_like lib w : bundles lib w -> member_like lib w.
Proof.
  intros (m & Hm & dir & hash & version & E & _). exists m. split; auto. split.
  - exists dir, (hash ++ word ".so" ++ version). exact E.
  - exists (dir ++ word lib ++ hash), version. rewrite E, <- !app_assoc. reflexivity.
Qed.

(** * Cases *)
Definition mk (name : string) (members : list string) (out : string) : wheel :=
  {| w_name := word name; w_members := map word members; w_audit := Some (word out) |}.
Definition good_wheel : wheel := mk "oceanmesh-1.0-cp311-cp311-manylinux_2_28_x86_64.whl"
  ["oceanmesh/__init__.py"; "oceanmesh.libs/libgmp-aa11.so.10"; "oceanmesh.libs/libmpfr-bb22.so.6"]%string "GLIBC_2.9, GLIBC_2.17 and GLIBC_2.2.5".
Definition xx_wheel : wheel := mk "oceanmesh-1.0-cp311-cp311-manylinux_2_28_x86_64.whl"
  ["oceanmesh/__init__.py"; "oceanmesh.libs/libgmpxx-aa11.so.4"; "oceanmesh.libs/libmpfr-bb22.so.6"]%string "GLIBC_2.17".
Definition new_wheel : wheel := mk "oceanmesh-1.0-cp312-cp312-linux_x86_64.whl" ["oceanmesh/__init__.py"]%string "GLIBC_2.34".
Definition arm_wheel : wheel := mk "oceanmesh-1.0-cp312-cp312-linux_aarch64.whl" [] "GLIBC_2.34".

Lemma good_case : main (limit_text (word "2") (word "28")) [arm_wheel; good_wheel] = ([(w_name good_wheel, [])], Ok 0%Z) /\
  parse_glibc_symbols (word "GLIBC_2.9, GLIBC_2.17 and GLIBC_2.2.5") = Ok (Some (2, 17)%N) /\
  main (limit_text (word "2") (word "28")) [good_wheel; new_wheel] =
    ([(w_name good_wheel, []); (w_name new_wheel, [NoTag; PlainLinux; TooNew (2, 34)%N (2, 28)%N; NoGmp; NoMpfr])], Ok 1%Z) /\
  read_int (word "2") = Some 2%N /\ read_int (word "28") = Some 28%N.
Proof. vm_compute. auto. Qed.
Lemma limit_case : main (word "2") [good_wheel] = ([], Ok 1%Z) /\ main (word "2.x") [good_wheel] = ([], Raise ValueError).
Proof. vm_compute. auto. Qed.

Lemma app_mid {A} (a b c d : list A) : a ++ b = c ++ d -> (List.length a <= List.length c)%nat -> exists r, c = a ++ r /\ b = r ++ d.
Proof.
  revert c. induction a as [|x a IH]; simpl; intros c H L; [now exists c|]. destruct c as [|y c]; simpl in *; [lia|]. inversion H. subst.
  destruct (IH c) as (r & -> & ->); auto; [lia|]. now exists r.
Qed.
(** After the name of the library comes a hyphen or .so. *)
Lemma library_next lib m : shared_library lib m -> exists dir rest, m = dir ++ word lib ++ rest /\ (hd_error rest = Some "-"%char \/ hd_error rest = Some "."%char).
Proof.
  intros (dir & hash & version & E & _ & Hh & _). exists dir, (hash ++ word ".so" ++ version). split; auto.
  destruct Hh as [->|(h & ->)]; simpl; auto.
Qed.
Fixpoint after_all (p s : list ascii) : list (list ascii) :=
  match after_prefix p s with Some r => [r] | None => [] end ++ match s with [] => [] | _ :: t => after_all p t end.
Lemma after_all_spec p : forall a b, In b (after_all p (a ++ p ++ b)).
Proof.
  induction a as [|x a IH]; intros b.
  - cbn [app]. destruct (p ++ b) eqn:E; cbn [after_all]; rewrite <- E, after_prefix_app; now left.
  - simpl. apply in_or_app. right. apply IH.
Qed.
Lemma no_library lib m : (forall r, In r (after_all (word lib) m) -> hd_error r <> Some "-"%char /\ hd_error r <> Some "."%char) -> ~ shared_library lib m.
Proof.
  intros H L. apply library_next in L. destruct L as (dir & rest & -> & Hn). destruct (H rest (after_all_spec _ _ _)). tauto.
Qed.
Lemma not_bundled : exists w, looked_at w /\ ~ bundles "libgmp" w /\ main (limit_text (word "2") (word "28")) [w] = ([(w_name w, [])], Ok 0%Z).
Proof.
  exists xx_wheel. split; [apply looked_iff; reflexivity|]. split; [|vm_compute; reflexivity].
  intros (m & [<-|[<-|[<-|[]]]] & L); revert L; apply no_library; vm_compute; intros r Hr; intuition (subst; discriminate).
Qed.
Lemma bundled_case : bundles "libgmp" good_wheel /\ bundles "libmpfr" good_wheel.
Proof.
  split.
  - exists (word "oceanmesh.libs/libgmp-aa11.so.10"). split; [simpl; auto|]. exists (word "oceanmesh.libs/"), (word "-aa11"), (word ".10").
    split; [reflexivity|]. split; [right; exists (word "oceanmesh.libs"); reflexivity|]. split; [right; exists (word "aa11"); reflexivity|].
    split; [right; exists (word "10"); reflexivity|]. split; intros H; simpl in H; intuition discriminate.
  - exists (word "oceanmesh.libs/libmpfr-bb22.so.6"). split; [simpl; auto|]. exists (word "oceanmesh.libs/"), (word "-bb22"), (word ".6").
    split; [reflexivity|]. split; [right; exists (word "oceanmesh.libs"); reflexivity|]. split; [right; exists (word "bb22"); reflexivity|].
    split; [right; exists (word "6"); reflexivity|]. split; intros H; simpl in H; intuition discriminate.
Qed.
