(** What a tree of objects holds, which object a path addresses, and what a problem's parameters are: the vocabulary of C62, independent of the traversals of
    ShareModel (only the heap and the records of the references are shared). *)
From Verif Require Import Base TreeModel TreeSpec ShareModel.

Section Spec.
Context {V : Type}.
Implicit Types (h : heap V) (T : ptree V).

(** the tree of values that the objects below [l] make up *)
Inductive denotes h : nat -> ptree V -> Prop :=
| denotes_node : forall l cs,
    Forall2 (fun oc kt => fst oc = fst kt /\ denotes h (snd oc) (snd kt)) (o_children (h_nodes h l)) cs ->
    denotes h l (Node (h_dicts h (o_data (h_nodes h l))) cs).

(** the objects below [l] hold the values of [T] at every node of [T]; they may hold more nodes *)
Inductive seen h : nat -> ptree V -> Prop :=
| seen_node : forall l cs,
    Forall (fun kt => exists c, dget (fst kt) (o_children (h_nodes h l)) = Some c /\ seen h c (snd kt)) cs ->
    seen h l (Node (h_dicts h (o_data (h_nodes h l))) cs).

(** following child names *)
Inductive leads h : nat -> list string -> nat -> Prop :=
| leads_here : forall l, leads h l [] l
| leads_down : forall l n c ns l', dget n (o_children (h_nodes h l)) = Some c -> leads h c ns l' -> leads h l (n :: ns) l'.
(** the dict object in which the parameter of a location is kept *)
Definition kept_in h (l : nat) (loc : loc) (d : nat) : Prop := exists n, leads h l (fst loc) n /\ o_data (h_nodes h n) = d.

(** the values of the direct parameters of a model and its submodels *)
Fixpoint tmap {A B} (f : A -> B) (t : tree A) : tree B := match t with Node a cs => Node (f a) (map (fun kc => (fst kc, tmap f (snd kc))) cs) end.
Fixpoint depth {A} (t : tree A) : nat := match t with Node _ cs => S (fold_right Nat.max 0 (map (fun kc => depth (snd kc)) cs)) end.
(** names of submodels are the keys of a dict *)
Fixpoint distinct_names {A} (t : tree A) : Prop :=
  match t with Node _ cs => NoDup (map fst cs) /\ (fix each (l : list (string * tree A)) := match l with [] => True | kc :: r => distinct_names (snd kc) /\ each r end) cs end.

(** the three places where a problem keeps its parameters hold the same: its tree, its model and what its constraints are evaluated with *)
Record has_params h (o : rocp V) T : Prop := {
  hp_tree : denotes h (r_params o) T;
  hp_model : tmap (h_dicts h) (r_model o) = T;
  hp_cons : forall lim, depth T <= lim -> hused lim h (r_con o) = Ok (map snd (make_flat_dict "" T)) }.

(** what the user can observe of the own objects *)
Record same_for_user (w w' : world V) : Prop := {
  su_trees : forall i l T, nth_error (w_trees w) i = Some l -> nth_error (w_trees w') i = Some l /\ (denotes (w_h w) l T -> denotes (w_h w') l T);
  su_dicts : forall j d, nth_error (w_dicts w) j = Some d -> nth_error (w_dicts w') j = Some d /\ h_dicts (w_h w') d = h_dicts (w_h w) d }.
Definition same_ocp (w w' : world V) (k : nat) : Prop :=
  forall o, nth_error (w_ocps w) k = Some o -> nth_error (w_ocps w') k = Some o /\ forall T, has_params (w_h w) o T -> has_params (w_h w') o T.

(** events that do not touch a problem *)
Definition of_user (e : event V) : Prop := match e with ONew _ _ _ | OMod _ _ _ => False | _ => True end.
Definition possible (e : event V) : Prop := match e with ONew shape _ _ => distinct_names shape | _ => True end.
Definition reachable (lim : nat) (w : world V) : Prop := exists es, Forall possible es /\ run lim start es = Ok w.

(** the modifications of one problem in a history *)
Fixpoint modifications (k : nat) (es : list (event V)) : list (string * V) :=
  match es with
  | [] => []
  | OMod k' p v :: r => if Nat.eqb k k' then (p, v) :: modifications k r else modifications k r
  | _ :: r => modifications k r
  end.
End Spec.
