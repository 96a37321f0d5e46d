(** Proofs about the mesh writers: the files can be read back. *)
From Coq Require Import List Ascii String ZArith NArith QArith Qround Qabs Lia Lqa Bool.
From Verif Require Import M_Base M_Writers S_Writers.
Import ListNotations.
Local Open Scope list_scope.

(** * Integers *)
Lemma digit_char d : (d < 10)%N -> N_of_ascii (digit d) = (48 + d)%N.
Proof. intros H. unfold digit. apply N_ascii_embedding. lia. Qed.
Lemma digit_is d : (d < 10)%N -> is_digit (digit d) = true.
Proof. intros H. unfold is_digit. rewrite digit_char by auto. apply andb_true_iff. split; apply N.leb_le; lia. Qed.
Definition val (l : list ascii) : N := fold_left (fun a c => 10 * a + (N_of_ascii c - 48))%N l 0%N.
Lemma val_snoc l c : val (l ++ [c]) = (10 * val l + (N_of_ascii c - 48))%N.
Proof. unfold val. rewrite fold_left_app. reflexivity. Qed.
Lemma fixed_val k : forall n, val (fixed_digits k n) = (n mod 10 ^ N.of_nat k)%N.
Proof.
  induction k as [|k IH]; intros n; [cbn; now rewrite N.mod_1_r|].
  cbn [fixed_digits]. rewrite val_snoc, IH. assert (n mod 10 < 10)%N by (apply N.mod_lt; lia). rewrite digit_char by auto.
  rewrite (N.add_comm 48), N.add_sub. rewrite Nat2N.inj_succ, N.pow_succ_r'.
  rewrite N.mod_mul_r; [|discriminate|apply N.pow_nonzero; discriminate]. apply N.add_comm.
Qed.
Lemma fixed_len k : forall n, List.length (fixed_digits k n) = k.
Proof. induction k as [|k IH]; intros n; [reflexivity|]. cbn [fixed_digits]. rewrite app_length, IH. cbn. lia. Qed.
Lemma fixed_is_digits k : forall n, forallb is_digit (fixed_digits k n) = true.
Proof.
  induction k as [|k IH]; intros n; [reflexivity|]. cbn [fixed_digits]. rewrite forallb_app, IH. cbn. rewrite digit_is; auto. apply N.mod_lt. lia.
Qed.
Lemma num_digits_bound f : forall n, (n < 2 ^ N.of_nat f)%N -> (n < 10 ^ N.of_nat (num_digits f n))%N.
Proof.
  induction f as [|f IH]; intros n H; [cbn in *; lia|]. cbn [num_digits]. destruct (N.ltb_spec n 10) as [L|L]; [cbn; lia|].
  rewrite !Nat2N.inj_succ, N.pow_succ_r' in *. specialize (IH (n / 10)%N).
  assert (n / 10 < 2 ^ N.of_nat f)%N. { apply N.div_lt_upper_bound; [lia|]. assert (0 < 2 ^ N.of_nat f)%N by (apply N.neq_0_lt_0, N.pow_nonzero; lia). lia. }
  specialize (IH H0). pose proof (N.div_mod n 10 ltac:(lia)) as D. pose proof (N.mod_lt n 10 ltac:(lia)). lia.
Qed.
Lemma num_digits_pos f n : num_digits f n <> 0%nat.
Proof. destruct f; cbn; [lia|]. destruct (n <? 10)%N; lia. Qed.
Lemma size_nat_bound n : (n < 2 ^ N.of_nat (N.size_nat n))%N.
Proof.
  destruct n as [|p]; [cbn; lia|]. cbn [N.size_nat]. induction p as [p IH|p IH|]; cbn [Pos.size_nat]; rewrite ?Nat2N.inj_succ, ?N.pow_succ_r'; [lia|lia|cbn; lia].
Qed.
Lemma read_digits l : l <> [] -> forallb is_digit l = true -> read_int l = Some (val l).
Proof. intros H1 H2. destruct l; [congruence|]. unfold read_int. now rewrite H2. Qed.
Lemma fmt_i_nonempty n : fmt_i n <> [].
Proof. unfold fmt_i. intros E. apply (f_equal (@List.length ascii)) in E. rewrite fixed_len in E. now apply num_digits_pos in E. Qed.
Lemma fmt_i_digits n : forallb is_digit (fmt_i n) = true.
Proof. apply fixed_is_digits. Qed.
Lemma read_fmt_i n : read_int (fmt_i n) = Some n.
Proof.
  rewrite read_digits by (apply fmt_i_nonempty || apply fmt_i_digits). unfold fmt_i. rewrite fixed_val. f_equal. apply N.mod_small.
  apply num_digits_bound, size_nat_bound.
Qed.

(** * Characters and tokens *)
Definition free (c : ascii) (l : list ascii) : Prop := ~ In c l.
Lemma digits_free c l : is_digit c = false -> forallb is_digit l = true -> free c l.
Proof. intros Hc Hl Hin. rewrite forallb_forall in Hl. rewrite (Hl c Hin) in Hc. discriminate. Qed.
Lemma free_app c a b : free c a -> free c b -> free c (a ++ b).
Proof. unfold free. rewrite in_app_iff. tauto. Qed.
Lemma free_nil c : free c [].
Proof. intros []. Qed.
Lemma free_cons c x l : x <> c -> free c l -> free c (x :: l).
Proof. intros H1 H2 [E|E]; auto. Qed.
Lemma split_free c l : free c l -> split_on c l = [l].
Proof.
  induction l as [|x l IH]; intros H; [reflexivity|]. cbn [split_on]. destruct (Ascii.eqb_spec x c) as [->|N]; [exfalso; apply H; now left|].
  rewrite IH; auto. intros K. apply H. now right.
Qed.
Lemma split_at c a b : free c a -> split_on c (a ++ c :: b) = a :: split_on c b.
Proof.
  induction a as [|x a IH]; intros H; cbn [app split_on].
  - now rewrite Ascii.eqb_refl.
  - destruct (Ascii.eqb_spec x c) as [->|N]; [exfalso; apply H; now left|]. rewrite IH; auto. intros K. apply H. now right.
Qed.
Lemma words_one w : w <> [] -> free " " w -> words w = [w].
Proof. intros H1 H2. unfold words. rewrite split_free by auto. destruct w; [congruence|reflexivity]. Qed.
Lemma words_cons w l : w <> [] -> free " " w -> words (w ++ " "%char :: l) = w :: words l.
Proof. intros H1 H2. unfold words. rewrite split_at by auto. destruct w; [congruence|reflexivity]. Qed.
Lemma words_nil : words [] = [].
Proof. reflexivity. Qed.

(** * Decimals *)
Lemma round_close q : (0 <= q)%Q -> (q - inject_Z (Z.of_N (round_even q)) <= 1 # 2 /\ inject_Z (Z.of_N (round_even q)) - q <= 1 # 2)%Q.
Proof.
  intros H. unfold round_even. set (f := Qfloor q). pose proof (Qfloor_le q) as A. pose proof (Qlt_floor q) as B. fold f in A, B.
  assert (F : (0 <= f)%Z). { unfold f. change 0%Z with (Qfloor 0). apply Qfloor_resp_le. exact H. }
  rewrite inject_Z_plus in B. change (inject_Z 1) with 1%Q in B.
  assert (E1 : inject_Z (Z.of_N (Z.to_N (f + 1))) = inject_Z (f + 1)) by (rewrite Z2N.id by lia; reflexivity).
  assert (E0 : inject_Z (Z.of_N (Z.to_N f)) = inject_Z f) by (rewrite Z2N.id by lia; reflexivity).
  destruct (q - inject_Z f ?= 1 # 2)%Q eqn:C.
  - apply Qeq_alt in C. destruct (Z.even f); rewrite ?E0, ?E1, ?inject_Z_plus; change (inject_Z 1) with 1%Q; lra.
  - apply Qlt_alt in C. rewrite E0. lra.
  - apply Qgt_alt in C. rewrite E1, inject_Z_plus. change (inject_Z 1) with 1%Q. lra.
Qed.
Definition udec (r : N) : list ascii := fmt_i (r / 1000000)%N ++ "."%char :: fixed_digits 6 r.
Lemma fmt_f_eq q : fmt_f q = (if Qle_bool 0 q then [] else ["-"%char]) ++ udec (round_even (Qabs q * (1000000 # 1))).
Proof. reflexivity. Qed.
Lemma read_udec r : exists v, read_unsigned_dec (udec r) = Some v /\ (v == inject_Z (Z.of_N r) / inject_Z 1000000)%Q.
Proof.
  unfold read_unsigned_dec, udec. rewrite split_at by (apply digits_free; [reflexivity|apply fmt_i_digits]).
  rewrite split_free by (apply digits_free; [reflexivity|apply fixed_is_digits]).
  rewrite read_fmt_i. rewrite read_digits; [|intros E; apply (f_equal (@List.length ascii)) in E; rewrite fixed_len in E; discriminate|apply fixed_is_digits].
  eexists. split; [reflexivity|]. rewrite fixed_len, fixed_val. change (10 ^ N.of_nat 6)%N with 1000000%N. change (10 ^ Z.of_nat 6)%Z with 1000000%Z.
  set (a := (r / 1000000)%N). set (b := (r mod 1000000)%N).
  assert (D : r = (1000000 * a + b)%N) by (apply N.div_mod; lia). rewrite D. rewrite N2Z.inj_add, N2Z.inj_mul. rewrite inject_Z_plus, inject_Z_mult.
  change (inject_Z (Z.of_N 1000000)) with (1000000 # 1)%Q. change (inject_Z 1000000) with (1000000 # 1)%Q. field.
Qed.
Lemma udec_no_minus r : exists c l, udec r = c :: l /\ Ascii.eqb c "-" = false.
Proof.
  unfold udec. destruct (fmt_i (r / 1000000)%N) as [|c l] eqn:E; [now apply fmt_i_nonempty in E|]. exists c, (l ++ "."%char :: fixed_digits 6 r). split; auto.
  pose proof (fmt_i_digits (r / 1000000)%N) as D. rewrite E in D. cbn in D. apply andb_true_iff in D. destruct D as [D _].
  destruct (Ascii.eqb_spec c "-") as [->|]; [discriminate|reflexivity].
Qed.
Lemma read_fmt_f q : exists v, read_dec (fmt_f q) = Some v /\ close6 v q.
Proof.
  rewrite fmt_f_eq. set (r := round_even (Qabs q * (1000000 # 1))). destruct (read_udec r) as (v & Hv & Ev). destruct (udec_no_minus r) as (c & l & Eu & Ec).
  assert (P : (0 <= Qabs q * (1000000 # 1))%Q) by (apply Qmult_le_0_compat; [apply Qabs_nonneg|lra]).
  pose proof (round_close _ P) as [R1 R2]. fold r in R1, R2. assert (Ev' : (v * (1000000 # 1) == inject_Z (Z.of_N r))%Q) by (rewrite Ev; field).
  destruct (Qle_bool 0 q) eqn:S.
  - apply Qle_bool_iff in S. exists v. split; [cbn [app]; rewrite Eu; unfold read_dec; rewrite Ec, <- Eu; exact Hv|].
    unfold close6. rewrite Qabs_pos in R1, R2 by auto. lra.
  - assert (S' : (q < 0)%Q) by (apply Qnot_le_lt; intros K; apply Qle_bool_iff in K; congruence).
    exists (- v)%Q. split; [cbn [app read_dec]; rewrite Ascii.eqb_refl, Hv; reflexivity|].
    unfold close6. rewrite Qabs_neg in R1, R2 by lra. lra.
Qed.
Lemma fmt_f_chars c q : is_digit c = false -> c <> "."%char -> c <> "-"%char -> free c (fmt_f q).
Proof.
  intros H1 H2 H3. rewrite fmt_f_eq. apply free_app; [destruct (Qle_bool 0 q); [apply free_nil|apply free_cons; auto; apply free_nil]|].
  unfold udec. apply free_app; [apply digits_free; auto; apply fmt_i_digits|]. apply free_cons; auto. apply digits_free; auto. apply fixed_is_digits.
Qed.
Lemma fmt_f_nonempty q : fmt_f q <> [].
Proof. rewrite fmt_f_eq. destruct (udec_no_minus (round_even (Qabs q * (1000000 # 1)))) as (c & l & -> & _). destruct (Qle_bool 0 q); discriminate. Qed.
Lemma fmt_i_free c n : is_digit c = false -> free c (fmt_i n).
Proof. intros H. apply digits_free; auto. apply fmt_i_digits. Qed.

(** * Rows *)
Definition node_line (k : N) (x y z : Q) : list ascii := fmt_i k ++ " "%char :: fmt_f x ++ " "%char :: fmt_f y ++ " "%char :: fmt_f z.
Definition elem_line (k : N) (t : nat * nat * nat) : list ascii :=
  let '(a, b, c) := t in fmt_i k ++ " "%char :: fmt_i 3 ++ " "%char :: fmt_i (N.of_nat a) ++ " "%char :: fmt_i (N.of_nat b) ++ " "%char :: fmt_i (N.of_nat c) ++ " "%char :: [].
Lemma node_row_eq k x y z : node_row k x y z = node_line k x y z ++ [nl].
Proof. unfold node_row, node_line. cbn [txt list_ascii_of_string]. rewrite <- !app_assoc. cbn [app]. rewrite <- !app_assoc. cbn [app]. rewrite <- !app_assoc. reflexivity. Qed.
Lemma elem_row_eq k t : elem_row k t = elem_line k t ++ [nl].
Proof. destruct t as [[a b] c]. unfold elem_row, elem_line. cbn [txt list_ascii_of_string]. rewrite <- !app_assoc. cbn [app]. rewrite <- !app_assoc. cbn [app]. rewrite <- !app_assoc. cbn [app]. rewrite <- !app_assoc. cbn [app]. rewrite <- !app_assoc. reflexivity. Qed.
Ltac chars := unfold nl; repeat match goal with
  | |- free _ (fmt_f _) => apply fmt_f_chars; [reflexivity|discriminate|discriminate]
  | |- free _ (fmt_i _) => apply fmt_i_free; reflexivity
  | |- free _ (_ ++ _) => apply free_app
  | |- free _ (_ :: _) => apply free_cons; [discriminate|]
  | |- free _ [] => apply free_nil
  end.
Lemma node_line_free k x y z : free nl (node_line k x y z).
Proof. unfold node_line. chars. Qed.
Lemma elem_line_free k t : free nl (elem_line k t).
Proof. destruct t as [[a b] c]. unfold elem_line. chars. Qed.
Lemma read_node_line k x y z : exists x' y' z', read_node (node_line k x y z) = Some (k, x', y', z') /\ close6 x' x /\ close6 y' y /\ close6 z' z.
Proof.
  destruct (read_fmt_f x) as (x' & Hx & Cx). destruct (read_fmt_f y) as (y' & Hy & Cy). destruct (read_fmt_f z) as (z' & Hz & Cz). exists x', y', z'. split; [|auto].
  unfold read_node, node_line. rewrite !words_cons, words_one by (apply fmt_i_nonempty || apply fmt_f_nonempty || chars). rewrite read_fmt_i, Hx, Hy, Hz. reflexivity.
Qed.
Lemma read_elem_line k a b c : read_elem (elem_line k (a, b, c)) = Some (k, N.of_nat a, N.of_nat b, N.of_nat c).
Proof.
  unfold read_elem, elem_line. rewrite !words_cons, words_nil by (apply fmt_i_nonempty || chars). rewrite !read_fmt_i. reflexivity.
Qed.
(** lines of a concatenation of rows *)
Fixpoint row_lines {A} (f : N -> A -> list ascii) (k : N) (l : list A) : list (list ascii) :=
  match l with [] => [] | x :: r => f k x :: row_lines f (k + 1)%N r end.
Lemma lines_rows {A} (f g : N -> A -> list ascii) : (forall k x, g k x = f k x ++ [nl]) -> (forall k x, free nl (f k x)) ->
  forall l k rest, lines (rows g k l ++ rest) = row_lines f k l ++ lines rest.
Proof.
  intros Hg Hf. induction l as [|x l IH]; intros k rest; [reflexivity|]. cbn [rows row_lines app]. rewrite Hg, <- !app_assoc. cbn [app].
  unfold lines. unfold nl. rewrite split_at by apply Hf. f_equal. apply IH.
Qed.
Lemma row_lines_len {A} (f : N -> A -> list ascii) l : forall k, List.length (row_lines f k l) = List.length l.
Proof. induction l as [|x l IH]; intros k; cbn; auto. Qed.
Lemma take_app a b : take (List.length a) (a ++ b) = Some (a, b).
Proof.
  unfold take. rewrite app_length. destruct (Nat.leb_spec (List.length a) (List.length a + List.length b)); [|lia]. f_equal. f_equal.
  - rewrite firstn_app, Nat.sub_diag, firstn_all. cbn. apply app_nil_r.
  - rewrite skipn_app, Nat.sub_diag, skipn_all. reflexivity.
Qed.
Lemma read_nodes l : forall k, exists nodes, read_all read_node (row_lines (fun k p => node_line k (fst (fst p)) (snd (fst p)) (snd p)) k l) = Some nodes /\
  Forall2 near nodes (numbered k l).
Proof.
  induction l as [|[[x y] z] l IH]; intros k; cbn [row_lines read_all numbered]; [exists []; split; auto|]. cbn [fst snd].
  destruct (read_node_line k x y z) as (x' & y' & z' & E & C). destruct (IH (k + 1)%N) as (nodes & En & Fn). exists ((k, x', y', z') :: nodes). rewrite E. cbn [obind].
  rewrite En. cbn [obind]. split; auto. constructor; auto. split; auto.
Qed.
Lemma read_elems l : forall k, read_all read_elem (row_lines elem_line k l) =
  Some (map flat (numbered k l)).
Proof.
  induction l as [|[[a b] c] l IH]; intros k; cbn [row_lines read_all numbered map]; [reflexivity|]. rewrite read_elem_line. cbn [obind]. rewrite IH. reflexivity.
Qed.

Definition file_of (title : list ascii) (points : list (Q * Q)) (z : list Q) (cells : list (nat * nat * nat)) : list ascii :=
  title ++ nl :: (fmt_i (N.of_nat (List.length cells)) ++ " "%char :: fmt_i (N.of_nat (List.length points))) ++ nl ::
  rows (fun k p => node_row k (fst (fst p)) (snd (fst p)) (snd p)) 1 (combine points z) ++ rows elem_row 1 cells ++ txt "0 " ++ nl :: txt "0 " ++ nl :: txt "0 " ++ nl :: txt "0 " ++ [nl].
Lemma read_file title points z cells : free nl title -> List.length z = List.length points ->
  exists nodes, read_fort14 (file_of title points z cells) =
    Some (title, nodes, map flat (numbered 1 cells), [[["0"]]; [["0"]]; [["0"]]; [["0"]]; []]%char) /\
    Forall2 near nodes (numbered 1 (combine points z)).
Proof.
  intros Ht Hz. destruct (read_nodes (combine points z) 1) as (nodes & En & Fn). exists nodes. split; auto.
  unfold read_fort14, file_of, lines, nl. rewrite split_at by exact Ht. fold nl. rewrite (split_at nl) by chars.
  rewrite words_cons, words_one by (apply fmt_i_nonempty || chars). rewrite !read_fmt_i. cbn [obind]. rewrite !Nat2N.id.
  fold (lines (rows (fun k p => node_row k (fst (fst p)) (snd (fst p)) (snd p)) 1 (combine points z) ++ rows elem_row 1 cells ++ txt "0 " ++ nl :: txt "0 " ++ nl :: txt "0 " ++ nl :: txt "0 " ++ [nl])).
  rewrite (lines_rows (fun k p => node_line k (fst (fst p)) (snd (fst p)) (snd p))) by (intros; apply node_row_eq || apply node_line_free).
  rewrite (lines_rows elem_line) by (intros; apply elem_row_eq || apply elem_line_free).
  set (nls := row_lines _ 1 (combine points z)) in *. assert (Ln : List.length nls = List.length points) by (unfold nls; rewrite row_lines_len, combine_length; lia).
  rewrite <- Ln, take_app. cbn [obind fst snd]. rewrite <- (row_lines_len elem_line cells 1), take_app. cbn [obind fst snd].
  rewrite En. cbn [obind]. rewrite read_elems. reflexivity.
Qed.

Lemma write_eq points st name flip :
  write_to_fort14 points st name flip =
    match depths points (a_topo st) flip with
    | Some z => ({| a_cells := map shift_cell (a_cells st); a_topo := match a_topo st with Some _ => Some z | None => None end |},
                 Ok (file_of (name ++ (if flip then txt " (bathymetry flipped) " else txt " ")) points z (map shift_cell (a_cells st))))
    | None => (st, Raise AssertionError)
    end.
Proof.
  unfold write_to_fort14, depths, file_of. destruct (a_topo st) as [z|].
  - destruct (Nat.eqb (List.length z) (List.length points)); [|reflexivity]. f_equal. f_equal. cbn [txt list_ascii_of_string]. repeat progress (rewrite <- ?app_assoc; cbn [app]). reflexivity.
  - f_equal. f_equal. cbn [txt list_ascii_of_string]. repeat progress (rewrite <- ?app_assoc; cbn [app]). reflexivity.
Qed.
Lemma depths_len points topo flip z : depths points topo flip = Some z -> List.length z = List.length points.
Proof.
  unfold depths. destruct topo as [t|].
  - destruct (Nat.eqb_spec (List.length t) (List.length points)); [|discriminate]. intros [= <-]. destruct flip; rewrite ?map_length; auto.
  - intros [= <-]. apply map_length.
Qed.
Lemma title_free name (flip : bool) : free nl name -> free nl (name ++ (if flip then txt " (bathymetry flipped) " else txt " ")).
Proof. intros H. apply free_app; auto. destruct flip; cbn [txt list_ascii_of_string]; chars. Qed.
Lemma fort14_read points st name flip z : ~ In nl name -> depths points (a_topo st) flip = Some z ->
  exists st' file nodes, write_to_fort14 points st name flip = (st', Ok file) /\
    read_fort14 file = Some (name ++ (if flip then txt " (bathymetry flipped) " else txt " "), nodes, map flat (numbered 1 (map shift_cell (a_cells st))), [[["0"]]; [["0"]]; [["0"]]; [["0"]]; []]%char) /\
    Forall2 near nodes (numbered 1 (combine points z)).
Proof.
  intros Hn Hd. rewrite write_eq, Hd. destruct (read_file (name ++ (if flip then txt " (bathymetry flipped) " else txt " ")) points z (map shift_cell (a_cells st)) (title_free name flip Hn) (depths_len _ _ _ _ Hd)) as (nodes & E & F).
  eexists. eexists. exists nodes. split; [reflexivity|]. split; [exact E|exact F].
Qed.
Lemma fort14_mismatch points st name flip t : a_topo st = Some t -> List.length t <> List.length points -> write_to_fort14 points st name flip = (st, Raise AssertionError).
Proof. intros Ht Hl. rewrite write_eq, Ht. unfold depths. destruct (Nat.eqb_spec (List.length t) (List.length points)); [congruence|reflexivity]. Qed.
(** effect on the caller's arrays *)
Lemma calls_shift points l : forall st, (match a_topo st with Some t => List.length t = List.length points | None => True end) ->
  a_cells (calls points st l) = map (shift_by (List.length l)) (a_cells st).
Proof.
  induction l as [|[name flip] l IH]; intros st H; cbn [calls List.length].
  - rewrite <- (map_id (a_cells st)) at 1. apply map_ext. intros [[a b] c]. reflexivity.
  - rewrite write_eq. destruct (depths points (a_topo st) flip) as [z|] eqn:D.
    + cbn [fst]. rewrite IH.
      * cbn [a_cells]. rewrite map_map. apply map_ext. intros [[a b] c]. cbn. rewrite !Nat.add_succ_r. reflexivity.
      * cbn [a_topo]. destruct (a_topo st); auto. eapply depths_len; eauto.
    + exfalso. unfold depths in D. destruct (a_topo st) as [t|]; [|discriminate]. apply Nat.eqb_eq in H. rewrite H in D. discriminate.
Qed.
Lemma shift_ne l : l <> [] -> map shift_cell l <> l.
Proof. destruct l as [|[[a b] c] l]; [congruence|]. intros _ E. injection E. lia. Qed.
Lemma numbered_inj {A} (l l' : list A) : forall k, numbered k l = numbered k l' -> l = l'.
Proof. revert l'. induction l as [|x l IH]; intros [|y l'] k E; cbn in E; try discriminate; auto. injection E as -> E. f_equal. eapply IH; eauto. Qed.
Lemma flat_inj x y : flat x = flat y -> x = y.
Proof. destruct x as [i [[a b] c]], y as [j [[d e] f]]. cbn. intros [= -> H1 H2 H3]. apply Nat2N.inj in H1, H2, H3. congruence. Qed.
Lemma map_inj {A B} (f : A -> B) : (forall x y, f x = f y -> x = y) -> forall l l', map f l = map f l' -> l = l'.
Proof. intros Hf. induction l as [|x l IH]; intros [|y l'] E; try discriminate; auto. injection E as E1 E2. f_equal; auto. Qed.
Lemma second_differs points st name flip : ~ In nl name -> a_cells st <> [] -> (match a_topo st with Some t => List.length t = List.length points | None => True end) ->
  exists st1 file1 st2 file2, write_to_fort14 points st name flip = (st1, Ok file1) /\ write_to_fort14 points st1 name flip = (st2, Ok file2) /\
    a_cells st1 <> a_cells st /\ file1 <> file2.
Proof.
  intros Hn Hc Ht.
  assert (D : exists z, depths points (a_topo st) flip = Some z). { unfold depths. destruct (a_topo st) as [t|]; eauto. apply Nat.eqb_eq in Ht. rewrite Ht. eauto. }
  destruct D as [z D]. destruct (fort14_read points st name flip z Hn D) as (st1 & f1 & n1 & E1 & R1 & _). assert (Es1 : {| a_cells := map shift_cell (a_cells st); a_topo := match a_topo st with Some _ => Some z | None => None end |} = st1) by (rewrite write_eq, D in E1; congruence).
  assert (D' : exists z', depths points (a_topo st1) flip = Some z').
  { rewrite <- Es1. cbn [a_topo]. destruct (a_topo st); [|unfold depths; eauto]. unfold depths. apply depths_len in D. apply Nat.eqb_eq in D. rewrite D. eauto. }
  destruct D' as [z' D']. destruct (fort14_read points st1 name flip z' Hn D') as (st2 & f2 & n2 & E2 & R2 & _).
  exists st1, f1, st2, f2. split; auto. split; auto. split.
  - rewrite <- Es1. cbn [a_cells]. apply shift_ne. auto.
  - intros <-. rewrite R1 in R2. assert (K : map flat (numbered 1 (map shift_cell (a_cells st))) = map flat (numbered 1 (map shift_cell (a_cells st1)))) by congruence.
    apply (map_inj flat flat_inj) in K. apply numbered_inj in K. rewrite <- Es1 in K. cbn [a_cells] in K.
    symmetry in K. revert K. apply shift_ne. destruct (a_cells st); [congruence|discriminate].
Qed.

(** * t3s *)
Lemma lines_cat (hs : list (list ascii)) rest : Forall (free nl) hs -> lines (List.concat (map (fun l => l ++ [nl]) hs) ++ rest) = hs ++ lines rest.
Proof.
  induction 1 as [|h hs H _ IH]; [reflexivity|]. cbn [map List.concat]. rewrite <- !app_assoc. cbn [app]. unfold lines, nl in *. rewrite split_at by exact H. f_equal. exact IH.
Qed.
Lemma words_space l : words (" "%char :: l) = words l.
Proof. unfold words. cbn [split_on]. rewrite Ascii.eqb_refl. reflexivity. Qed.
Definition t3s_node_line (p : Q * Q) : list ascii := fmt_f (fst p) ++ " "%char :: fmt_f (snd p) ++ " "%char :: fmt_f 0.
Definition t3s_elem_line (t : nat * nat * nat) : list ascii :=
  let '(a, b, c) := t in fmt_i (N.of_nat a) ++ " "%char :: fmt_i (N.of_nat b) ++ " "%char :: fmt_i (N.of_nat c) ++ " "%char :: [].
Lemma t3s_node_eq p : t3s_node_row p = t3s_node_line p ++ [nl].
Proof. unfold t3s_node_row, t3s_node_line. cbn [txt list_ascii_of_string]. repeat progress (rewrite <- ?app_assoc; cbn [app]). reflexivity. Qed.
Lemma t3s_elem_eq t : t3s_elem_row t = t3s_elem_line t ++ [nl].
Proof. destruct t as [[a b] c]. unfold t3s_elem_row, t3s_elem_line. cbn [txt list_ascii_of_string]. repeat progress (rewrite <- ?app_assoc; cbn [app]). reflexivity. Qed.
Lemma t3s_lines points cells rest :
  lines (List.concat (map t3s_node_row points) ++ List.concat (map t3s_elem_row cells) ++ rest) = map t3s_node_line points ++ map t3s_elem_line cells ++ lines rest.
Proof.
  rewrite (map_ext _ _ t3s_node_eq), (map_ext _ _ t3s_elem_eq). rewrite <- (map_map t3s_node_line (fun l => l ++ [nl])), <- (map_map t3s_elem_line (fun l => l ++ [nl])).
  rewrite !lines_cat; auto; apply Forall_forall; intros l Hl; apply in_map_iff in Hl.
  - destruct Hl as ([[a b] c] & <- & _). unfold t3s_elem_line. chars.
  - destruct Hl as ([x y] & <- & _). unfold t3s_node_line. chars.
Qed.
Lemma scan_skip np ne l r : (forall k, words l <> [k] \/ text_eqb k (str ":EndHeader") = false) -> 
  (forall k v, words l = [k; v] -> text_eqb k (str ":NodeCount") = false /\ text_eqb k (str ":ElementCount") = false) ->
  t3s_scan np ne (l :: r) = t3s_scan np ne r.
Proof.
  intros H1 H2. cbn [t3s_scan]. destruct (words l) as [|k [|v [|]]] eqn:E; auto.
  - destruct (H1 k) as [K|K]; [congruence|]. now rewrite K.
  - destruct (H2 k v eq_refl) as [K1 K2]. now rewrite K1, K2.
Qed.
Lemma scan_header date np ne rest : t3s_scan None None (t3s_header date np ne ++ rest) = Some (np, ne, rest).
Proof.
  unfold t3s_header. cbn [app].
  do 8 (rewrite scan_skip; [|intros k; (left; vm_compute; discriminate) || (destruct (text_eqb k (str ":EndHeader")) eqn:E; auto; left; intros K; vm_compute in K; injection K as <-; vm_compute in E; discriminate)
    |intros k v K; vm_compute in K; try discriminate; injection K as <- <-; split; reflexivity]).
  assert (Hd : words (txt "        :CreationDate " ++ date) = txt ":CreationDate" :: words date).
  { change (txt "        :CreationDate " ++ date) with (" "%char :: " "%char :: " "%char :: " "%char :: " "%char :: " "%char :: " "%char :: " "%char :: (txt ":CreationDate" ++ " "%char :: date)).
    rewrite !words_space. apply words_cons; [discriminate|]. cbn [txt list_ascii_of_string]. chars. }
  rewrite scan_skip; [|intros k|intros k v K].
  2: { destruct (text_eqb k (str ":EndHeader")) eqn:E; auto. left. rewrite Hd. intros K. injection K as <- _. vm_compute in E. discriminate. }
  2: { rewrite Hd in K. injection K as <- _. split; reflexivity. }
  do 6 (rewrite scan_skip; [|intros k; (left; vm_compute; discriminate) || (destruct (text_eqb k (str ":EndHeader")) eqn:E; auto; left; intros K; vm_compute in K; injection K as <-; vm_compute in E; discriminate)
    |intros k v K; vm_compute in K; try discriminate; injection K as <- <-; split; reflexivity]).
  assert (Hn : words (txt "        :NodeCount " ++ fmt_i np) = [txt ":NodeCount"; fmt_i np]).
  { change (txt "        :NodeCount " ++ fmt_i np) with (" "%char :: " "%char :: " "%char :: " "%char :: " "%char :: " "%char :: " "%char :: " "%char :: (txt ":NodeCount" ++ " "%char :: fmt_i np)).
    rewrite !words_space, words_cons; [|discriminate|cbn [txt list_ascii_of_string]; chars]. rewrite words_one by (apply fmt_i_nonempty || chars). reflexivity. }
  assert (He : words (txt "        :ElementCount " ++ fmt_i ne) = [txt ":ElementCount"; fmt_i ne]).
  { change (txt "        :ElementCount " ++ fmt_i ne) with (" "%char :: " "%char :: " "%char :: " "%char :: " "%char :: " "%char :: " "%char :: " "%char :: (txt ":ElementCount" ++ " "%char :: fmt_i ne)).
    rewrite !words_space, words_cons; [|discriminate|cbn [txt list_ascii_of_string]; chars]. rewrite words_one by (apply fmt_i_nonempty || chars). reflexivity. }
  set (n1 := txt "        :NodeCount " ++ fmt_i np) in *. set (n2 := txt "        :ElementCount " ++ fmt_i ne) in *.
  cbn [t3s_scan]. rewrite Hn, He. rewrite !read_fmt_i. reflexivity.
Qed.
Lemma read_t3s_nodes points : exists nodes, read_all read_t3s_node (map t3s_node_line points) = Some nodes /\
  Forall2 (fun (n : Q * Q * Q) (p : Q * Q) => let '(x', y', z') := n in close6 x' (fst p) /\ close6 y' (snd p) /\ (z' == 0)%Q) nodes points.
Proof.
  induction points as [|[x y] l IH]; cbn [map read_all]; [exists []; auto|]. destruct IH as (nodes & E & F). destruct (read_fmt_f x) as (x' & Hx & Cx). destruct (read_fmt_f y) as (y' & Hy & Cy).
  assert (Hz : exists z', read_dec (fmt_f 0) = Some z' /\ (z' == 0)%Q) by (eexists; split; [vm_compute; reflexivity|reflexivity]). destruct Hz as (z' & Hz & Cz).
  exists ((x', y', z') :: nodes). rewrite E. split.
  - unfold read_t3s_node at 1. unfold t3s_node_line. cbn [fst snd]. rewrite !words_cons, words_one by (apply fmt_f_nonempty || chars). rewrite Hx, Hy, Hz. reflexivity.
  - constructor; auto.
Qed.
Lemma read_t3s_elems cells : read_all read_t3s_elem (map t3s_elem_line cells) = Some (map (fun t => let '(a, b, c) := t in (N.of_nat a, N.of_nat b, N.of_nat c)) cells).
Proof.
  induction cells as [|[[a b] c] l IH]; cbn [map read_all]; [reflexivity|]. rewrite IH. unfold read_t3s_elem, t3s_elem_line.
  rewrite !words_cons, words_nil by (apply fmt_i_nonempty || chars). rewrite !read_fmt_i. reflexivity.
Qed.
Lemma header_free date np ne : free nl date -> Forall (free nl) (t3s_header date np ne).
Proof.
  intros H. unfold t3s_header. repeat (apply Forall_cons; [cbn [txt list_ascii_of_string]; chars; try exact H|]). apply Forall_nil.
Qed.
Lemma t3s_read points st date : ~ In nl date ->
  exists file nodes, write_to_t3s points st date = (st, Ok file) /\
    read_t3s file = Some (nodes, map (fun t => let '(a, b, c) := t in (N.of_nat a, N.of_nat b, N.of_nat c)) (a_cells st)) /\
    Forall2 (fun (n : Q * Q * Q) (p : Q * Q) => let '(x', y', z') := n in close6 x' (fst p) /\ close6 y' (snd p) /\ (z' == 0)%Q) nodes points.
Proof.
  intros Hd. destruct (read_t3s_nodes points) as (nodes & En & Fn). eexists. exists nodes. split; [reflexivity|]. split; auto.
  unfold read_t3s. rewrite lines_cat by (apply header_free; exact Hd). rewrite scan_header. cbn [obind fst snd]. rewrite !Nat2N.id.
  rewrite <- (app_nil_r (List.concat (map t3s_elem_row (a_cells st)))). rewrite t3s_lines.
  rewrite <- (map_length t3s_node_line points), take_app. cbn [obind fst snd]. rewrite <- (map_length t3s_elem_line (a_cells st)), take_app. cbn [obind fst snd].
  rewrite En. cbn [obind]. rewrite read_t3s_elems. reflexivity.
Qed.
