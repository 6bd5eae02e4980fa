(** Specification of the objectives. *)
From Verif Require Import Base RBase UtilsModel.

(** weight of an input: 0 unless given *)
Definition weight_of (weights : dict R) (n : string) : R := match dget n weights with Some w => w | None => 0 end.
(** mean over the stages of the weighted squares; [v s c] is the value of the c-th input at stage s *)
Definition penalty (weights : dict R) (inputs : list string) (nstages : nat) (v : nat -> nat -> R) : R :=
  rsum (map (fun s => rsum (map (fun c => weight_of weights (nth c inputs "") * (v s c * v s c)) (seq 0 (List.length inputs)))) (seq 0 nstages)) / INR nstages.
