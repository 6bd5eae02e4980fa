(** Specification vocabulary for composite models. *)
From Verif Require Import Base TreeModel CompModel.

Section S.
Context {V : Type}.

(** Python dicts have unique keys *)
Definition class_ok (c : mclass V) : Prop := NoDup (keys (csubs c)).
Definition reg_ok (reg : registry V) : Prop := forall n c, dget n reg = Some c -> cname c = n /\ class_ok c.

(** [declared reg tn names]: starting at type [tn] in configuration [cfg], every name is a declared submodel of the configured type *)
Fixpoint declared (reg : registry V) (cfg : tree string) (names : list string) : Prop :=
  match names with
  | [] => True
  | n :: r => (exists c, dget (tdata cfg) reg = Some c /\ In n (keys (csubs c))) /\ exists s, dget n (tchildren cfg) = Some s /\ declared reg s r
  end.

(** a configuration a model can be built from: at every declared place there is a child configuration with a registered type *)
Inductive valid_cfg (reg : registry V) : tree string -> Prop :=
| VC tn ch c : dget tn reg = Some c ->
    (forall n, In n (keys (csubs c)) -> exists s, dget n ch = Some s /\ valid_cfg reg s) -> valid_cfg reg (Node tn ch).

(** the configuration a class describes by default: its own type, and for every declared submodel the default of its type *)
Inductive default_cfg (reg : registry V) : mclass V -> tree string -> Prop :=
| DC c ch : Forall2 (fun nt nc => fst nt = fst nc /\ exists c', dget (snd nt) reg = Some c' /\ default_cfg reg c' (snd nc)) (csubs c) ch ->
    default_cfg reg c (Node (cname c) ch).

(** a parameter tree has a node at every place of a model *)
Definition covers (m : model V) (p : ptree V) : Prop := forall names s, mwalk names m = Ok s -> exists q, walk names p = Ok q.

(** every model reachable has dictionaries of submodels with unique names *)
Inductive wf_model : model V -> Prop :=
| WF c p s : NoDup (keys s) -> (forall n sm, In (n, sm) s -> wf_model sm) -> wf_model (M c p s).

(** two models with the same classes at the same places *)
Inductive same_structure : model V -> model V -> Prop :=
| SS c p p' s s' : Forall2 (fun a b => fst a = fst b /\ same_structure (snd a) (snd b)) s s' -> same_structure (M c p s) (M c p' s').

(** most recent operation on a name *)
Fixpoint last_op (n : string) (h : list (rop V)) : option bool :=
  match h with
  | [] => None
  | op :: r => match last_op n r with
               | Some b => Some b
               | None => match op with RAdd c => if String.eqb (cname c) n then Some true else None
                                     | RRemove c => if String.eqb (cname c) n then Some false else None end
               end
  end.
End S.
