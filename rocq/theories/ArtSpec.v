(** Specification vocabulary for C58: what a build should return and which schedules are disciplined. *)
From Verif Require Import Base ArtModel.

(** the four functions of the C code [c] *)
Definition functions_of (c : source) : list (string * source) :=
  [("forward", c); ("implicit_con", c); ("implicit_jac", c); ("implicit_hess", c)].

(** C code the compiler accepts and that has the four functions *)
Definition complete (compiles : source -> bool) (defines : source -> string -> bool) (c : source) : Prop :=
  compiles c = true /\ defines c "forward" = true /\ defines c "implicit_con" = true /\ defines c "implicit_jac" = true /\ defines c "implicit_hess" = true.

(** nobody is in the middle of a build: every build is yet to start, finished or dead *)
Definition quiet (s : sys) : Prop :=
  forall i src p, nth_error (builds s) i = Some (src, p) -> p = PStart \/ p = PKilled \/ exists r, p = PDone r.

(** the build has opened the C file and the compiler has not read it yet *)
Definition inside (p : pc) : Prop :=
  match p with PWrite _ | PHash _ | PCheck _ | PGcc _ => True | _ => False end.

(** schedules in which a build starts only while no other build is between opening the C file and having it read by the compiler (what a lock
    on the file would give); kills and compiler failures are unrestricted *)
Definition locked (md5 : source -> string) (compiles : source -> bool) (defines : source -> string -> bool) (s : sys) (l : list event) : Prop :=
  forall l1 i l2 src, l = l1 ++ Run i :: l2 -> nth_error (builds (srun md5 compiles defines s l1)) i = Some (src, PStart) ->
  forall j src' p, nth_error (builds (srun md5 compiles defines s l1)) j = Some (src', p) -> j <> i -> ~ inside p.

(** every complete library in the directory was compiled from C code with the hash that names it *)
Definition honest (md5 : source -> string) (d : dir) : Prop := forall h c, libs d h = Some (Linked c) -> h = md5 c.

(** the C codes a run can meet: those of its builds and those the libraries were compiled from *)
Definition present (s : sys) (c : source) : Prop :=
  (exists p, In (c, p) (builds s)) \/ exists h, libs (files s) h = Some (Linked c).
Definition no_collision (md5 : source -> string) (s : sys) : Prop :=
  forall a b, present s a -> present s b -> md5 a = md5 b -> a = b.
