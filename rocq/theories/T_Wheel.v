(** Theorems about the wheel check of the release workflow (C185-C187). *)
From Coq Require Import List Ascii String ZArith NArith.
From Verif Require Import M_Base M_Writers M_Version M_Wheel S_Writers S_Version S_Wheel P_Version P_Wheel.
Import ListNotations.
Open Scope list_scope.

(** C185.  The exit status is 0 exactly if there is a wheel to look at and all of them are acceptable; every one
    looked at is reported, without complaint exactly if it is acceptable. *)
Theorem C185_verdict : forall d e x y files, read_int d = Some x -> read_int e = Some y -> (forall w, In w files -> looked_at w -> w_audit w <> None) ->
  exists rep s, main (limit_text d e) files = (rep, Ok s) /\ (s = 0 \/ s = 1)%Z /\
    (s = 0%Z <-> (exists w, In w files /\ looked_at w) /\ forall w, In w files -> looked_at w -> acceptable (x, y) w) /\
    Forall2 (fun w r => fst r = w_name w /\ (snd r = [] <-> acceptable (x, y) w)) (filter is_linux_wheel files) rep.
Proof. exact verdict. Qed.
Print Assumptions C185_verdict.
Theorem C185_looked_at : forall w, is_linux_wheel w = true <-> looked_at w.
Proof. exact looked_iff. Qed.
Print Assumptions C185_looked_at.
(** If auditwheel fails on a wheel, the wheels after it are not looked at. *)
Theorem C185_aborts : forall d e x y pre w post, read_int d = Some x -> read_int e = Some y ->
  (forall v, In v pre -> looked_at v -> w_audit v <> None) -> looked_at w -> w_audit w = None ->
  exists rep, main (limit_text d e) (pre ++ w :: post) = (rep, Raise RuntimeError) /\ map fst rep = map w_name (filter is_linux_wheel pre ++ [w]).
Proof. exact aborts. Qed.
Print Assumptions C185_aborts.
(** A limit without exactly one dot ends the program with status 1 before any wheel is looked at. *)
Theorem C185_bad_limit : forall lim files, ~ (exists a b, lim = limit_text a b /\ ~ In "."%char a /\ ~ In "."%char b) -> main lim files = ([], Ok 1%Z).
Proof. exact bad_limit. Qed.
Print Assumptions C185_bad_limit.

(** C186.  The version compared with the limit is the newest one named anywhere in the output of auditwheel, by
    numbers and not by text. *)
Theorem C186_newest : forall out, exists r, parse_glibc_symbols out = Ok r /\
  (r = None -> forall v, ~ mentions out v) /\
  (forall v, r = Some v -> mentions out v /\ forall u, mentions out u -> ~ newer u v).
Proof. exact newest. Qed.
Print Assumptions C186_newest.

(** C187.  A wheel that bundles both libraries is never refused for lack of them; a wheel with libgmpxx in place of
    libgmp is accepted. *)
Theorem C187_never_missed_partial : forall lib w, bundles lib w -> contains_shared_lib w (word lib) = true.
Proof. exact (fun lib w H => proj2 (lib_iff w lib) (library_like lib w H)). Qed.
Print Assumptions C187_never_missed_partial.
Theorem C187_bundled_refuted : exists w, looked_at w /\ ~ bundles "libgmp" w /\ main (limit_text (word "2") (word "28")) [w] = ([(w_name w, [])], Ok 0%Z).
Proof. exact not_bundled. Qed.
Print Assumptions C187_bundled_refuted.

Example C185_case : main (limit_text (word "2") (word "28")) [arm_wheel; good_wheel] = ([(w_name good_wheel, [])], Ok 0%Z) /\
  parse_glibc_symbols (word "GLIBC_2.9, GLIBC_2.17 and GLIBC_2.2.5") = Ok (Some (2, 17)%N) /\
  main (limit_text (word "2") (word "28")) [good_wheel; new_wheel] =
    ([(w_name good_wheel, []); (w_name new_wheel, [NoTag; PlainLinux; TooNew (2, 34)%N (2, 28)%N; NoGmp; NoMpfr])], Ok 1%Z) /\
  read_int (word "2") = Some 2%N /\ read_int (word "28") = Some 28%N.
Proof. exact good_case. Qed.
Example C185_case_limit : main (word "2") [good_wheel] = ([], Ok 1%Z) /\ main (word "2.x") [good_wheel] = ([], Raise ValueError).
Proof. exact limit_case. Qed.
Example C187_case : bundles "libgmp" good_wheel /\ bundles "libmpfr" good_wheel.
Proof. exact bundled_case. Qed.
