(** Model of lumos/models/tires/utils.py.  A file is its list of lines; the values have an arbitrary type, and [num] stands for Python's float() applied to a
    text without surrounding white space: Some value, or None when it raises ValueError. *)
From Verif Require Import Base.

Definition space : ascii := " "%char.
Definition eqc : ascii := "="%char.
Definition dol : ascii := "$"%char.
(** the white space that float() ignores at both ends of its argument *)
Definition is_ws (c : ascii) : bool := let n := nat_of_ascii c in (Nat.eqb n 32 || (Nat.leb 9 n && Nat.leb n 13) || (Nat.leb 28 n && Nat.leb n 31))%bool.
Fixpoint lstrip (s : string) : string := match s with EmptyString => s | String c r => if is_ws c then lstrip r else s end.
Fixpoint rstrip (s : string) : string := match s with EmptyString => s | String c r => match rstrip r with EmptyString => if is_ws c then EmptyString else String c EmptyString | t => String c t end end.
Definition strip (s : string) : string := rstrip (lstrip s).
(** "=" in line *)
Fixpoint has_char (c : ascii) (s : string) : bool := match s with EmptyString => false | String a r => (Ascii.eqb a c || has_char c r)%bool end.
(** line.replace(" ", "") *)
Fixpoint remove_spaces (s : string) : string := match s with EmptyString => s | String a r => if Ascii.eqb a space then remove_spaces r else String a (remove_spaces r) end.
(** re.split("[=$]", s) *)
Fixpoint split_re (s : string) : list string :=
  match s with
  | EmptyString => [EmptyString]
  | String a r => if (Ascii.eqb a eqc || Ascii.eqb a dol)%bool then EmptyString :: split_re r
                  else match split_re r with [] => [String a EmptyString] | h :: t => String a h :: t end
  end.
Section Tir.
Context {V : Type} (num : string -> option V).
(** utils.py:33-41: one turn of the loop; unpacking fewer than two pieces raises ValueError *)
Definition read_line (params : dict V) (line : string) : result (dict V) :=
  if has_char eqc line then
    match split_re (remove_spaces line) with
    | name :: val :: _ => Ok (match num (strip val) with Some v => dset name v params | None => params end)
    | _ => Raise ValueError
    end
  else Ok params.
(** utils.py:9-43 [read_tir_file] *)
Definition read_tir_file (lines : list string) : result (dict V) := foldM read_line lines [].
(** utils.py:48-61 [create_params_from_tir_file]; e6 and e3 are the numbers 1e-6 and 1e-3 *)
Definition create_params_from_tir_file (e6 e3 : V) (lines : list string) : result (dict V) :=
  fmap (fun params => dupdate params [("epsilonv", e6); ("epsilonx", e3); ("epsilonk", e6); ("epsilony", e3)]) (read_tir_file lines).
End Tir.
