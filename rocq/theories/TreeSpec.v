(** Specification vocabulary for C01-C06: what a user means by "the parameters of a tree".
    Independent of the traversal code in TreeModel (only the datatype [tree] is shared). *)
From Verif Require Import Base TreeModel.

(** A location is a chain of child names and a parameter key. *)
Definition loc : Type := list string * string.

(** All parameters of a tree with their locations, node data first, then child by child. *)
Fixpoint leaves {V} (t : ptree V) : list (loc * V) :=
  match t with
  | Node d c =>
      map (fun kv => (([], fst kv), snd kv)) d ++
      flat_map (fun nc => map (fun lv => ((fst nc :: fst (fst lv), snd (fst lv)), snd lv))
                              (leaves (snd nc))) c
  end.

Definition leaf_locs {V} (t : ptree V) : list loc := map fst (leaves t).
Definition leaf_values {V} (t : ptree V) : list V := map snd (leaves t).

(** The key under which a user finds a location: names and key joined by ".". *)
Definition dotted (l : loc) : string := join dot (fst l ++ [snd l]).

(** The shape of a parameter tree: everything but the values. *)
Fixpoint shape {V} (t : ptree V) : ptree unit :=
  match t with
  | Node d c => Node (map (fun kv => (fst kv, tt)) d) (map (fun nc => (fst nc, shape (snd nc))) c)
  end.

(** Python dicts have unique keys: what the representation by lists must respect. *)
Fixpoint uniq {D} (okdata : D -> bool) (t : tree D) : bool :=
  match t with
  | Node d c =>
      okdata d && nodupb (keys c) &&
      forallb (fun nc => uniq okdata (snd nc)) c
  end.
Definition uniq_p {V} (t : ptree V) : bool := uniq (fun d => nodupb (keys d)) t.
Definition uniq_c {V} (t : tree V) : bool := uniq (fun _ => true) t.

(** Names are non-empty and, like parameter keys, contain no ".". *)
Definition name_ok (s : string) : bool := no_char dot s && negb (String.eqb s "").
Definition key_ok (s : string) : bool := no_char dot s.
Fixpoint named {D} (okdata : D -> bool) (t : tree D) : bool :=
  match t with
  | Node d c => okdata d && forallb name_ok (keys c) && forallb (fun nc => named okdata (snd nc)) c
  end.
Definition named_p {V} (t : ptree V) : bool := named (fun d => forallb key_ok (keys d)) t.
Definition named_c {V} (t : tree V) : bool := named (fun _ => true) t.

(** All nodes of a tree with their paths, parent before children. *)
Fixpoint nodes {D} (t : tree D) : list (list string * D) :=
  match t with
  | Node d c => ([], d) :: flat_map (fun nc => map (fun pd => (fst nc :: fst pd, snd pd))
                                                   (nodes (snd nc))) c
  end.
Fixpoint cshape {D} (t : tree D) : tree unit :=
  match t with Node _ c => Node tt (map (fun nc => (fst nc, cshape (snd nc))) c) end.

(** Does a string start with the "." delimiter? *)
Definition starts_dot (s : string) : bool :=
  match s with String a _ => Ascii.eqb a dot | EmptyString => false end.

(** number of elements of an array of shape [s]: the product of its extents *)
Fixpoint shape_size (s : list nat) : nat := match s with [] => 1 | d :: r => d * shape_size r end.

(** A leaf that survives raveling: scalars, and consistent arrays with more than 1 element *)
Definition leaf_ok {A} (x : leaf A) : bool :=
  match x with
  | LScalar _ => true
  | LArray s e => Nat.ltb 1 (List.length e) && Nat.eqb (shape_size s) (List.length e)
  end.
