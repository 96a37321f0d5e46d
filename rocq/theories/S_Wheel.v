(** What the wheel check should decide. *)
From Coq Require Import List Ascii String ZArith NArith.
From Verif Require Import S_Writers S_Version M_Wheel.
Import ListNotations.

Definition within (needle s : list ascii) : Prop := exists a b, s = a ++ needle ++ b.
(** The text names the symbol version x.y of the C library. *)
Definition mentions (s : list ascii) (v : N * N) : Prop := exists a d e b,
  s = a ++ word "GLIBC_" ++ d ++ word "." ++ e ++ b /\ read_int d = Some (fst v) /\ read_int e = Some (snd v) /\
  (forall c, hd_error b = Some c -> is_digit c = false).
Definition newer (u v : N * N) : Prop := (fst v < fst u)%N \/ fst v = fst u /\ (snd v < snd u)%N.

(** Wheels for Linux on x86_64 other than those for musl. *)
Definition looked_at (w : wheel) : Prop := within (word "linux") (w_name w) /\ within (word "x86_64") (w_name w) /\ ~ within (word "musllinux") (w_name w).
(** Some member of the wheel has both texts in its path. *)
Definition member_like (lib : string) (w : wheel) : Prop := exists m, In m (w_members w) /\ within (word lib) m /\ within (word ".so") m.
Definition acceptable (allowed : N * N) (w : wheel) : Prop := exists out, w_audit w = Some out /\ within (word "manylinux") (w_name w) /\
  (forall v, mentions out v -> ~ newer v allowed) /\ member_like "libgmp" w /\ member_like "libmpfr" w.
(** The limit as it should be written: two numbers and a dot. *)
Definition limit_text (d e : list ascii) : list ascii := d ++ word "." ++ e.
(** A member that is the shared library: a file name of lib, possibly a hash, .so and possibly a version. *)
Definition shared_library (lib : string) (m : list ascii) : Prop := exists dir hash version,
  m = dir ++ word lib ++ hash ++ word ".so" ++ version /\ (dir = [] \/ exists d, dir = d ++ word "/") /\
  (hash = [] \/ exists h, hash = word "-" ++ h) /\ (version = [] \/ exists v, version = word "." ++ v) /\
  ~ In "/"%char hash /\ ~ In "/"%char version.
Definition bundles (lib : string) (w : wheel) : Prop := exists m, In m (w_members w) /\ shared_library lib m.
