(** Which variables are cyclic. *)
From Verif Require Import Base RBase UtilsModel OcpModel.

(** all states, then all inputs, except the excluded full names "group.name", in declaration order *)
Definition cyclic_pairs (st inp excl : list string) : list (string * string) :=
  filter (fun gn => negb (existsb (String.eqb (String.append (fst gn) (String.append "." (snd gn)))) excl))
    (map (pair "states") st ++ map (pair "inputs") inp).
Definition full_name (gn : string * string) : string := String.append (fst gn) (String.append "." (snd gn)).
