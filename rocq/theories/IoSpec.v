(** Specification vocabulary for the submodel call protocol. *)
From Verif Require Import Base TreeModel UtilsModel IoModel.

Section S.
Context {V : Type}.
(** what a call returns after a history *)
Definition returns (root : sm) (h : list (cop V)) (op : cop V) : result (dict V) := snd (cstep root (crun root h) op).
(** submodel [n] was called successfully, returning [r], and the outputs have not been combined successfully since *)
Definition pending (root : sm) (h : list (cop V)) (n : string) (r : dict V) : Prop :=
  exists h1 kw h2, h = h1 ++ Call n kw (Ok r) :: h2 /\ returns root h1 (Call n kw (Ok r)) = Ok r /\
    forall a b, h2 = a ++ Combine :: b -> exists e, returns root (h1 ++ Call n kw (Ok r) :: a) Combine = Raise e.
(** a proper call of submodel [n]: it exists and gets the values it needs *)
Definition proper (root : sm) (n : string) (kw : dict (list string)) : Prop :=
  exists ss inputs states l, dget n (sm_subs root) = Some (SM ss inputs states l) /\ 
    (exists given, dget "inputs" kw = Some given /\ incl inputs given) /\ (ss = true -> exists given, dget "states" kw = Some given /\ incl states given).
End S.
(** [q] is the full name of something that the model or one of its submodels declares: the path of submodel names and the declared name, joined by dots *)
Inductive declared (sel : direct -> list string) : mio -> string -> Prop :=
| declared_here : forall d s n, In n (sel d) -> declared sel (MIO d s) n
| declared_below : forall d s k m n, In (k, m) s -> declared sel m n -> declared sel (MIO d s) (String.append k (String.append "." n)).
