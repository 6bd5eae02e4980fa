(** Model of the files through which lumos compiles a model with CasADi (base.py:780-886, 888-949): [nlpfunctions.c], one shared library
    per hash in the working directory, and any number of processes that share that directory.
    A process is a program counter; [pstep] is one file operation.  The operating system's view: opening for writing truncates, a write goes
    to the writer's own offset (a gap reads as NUL bytes), a read returns what is there at that moment.
    Simplifications: the C file is written byte by byte; the compiler reads its input in one step, creates the library file and then
    completes it; [dlopen] of an incomplete library or of one without the symbol fails with RuntimeError; nobody removes files. *)
From Verif Require Import Base TreeModel CompModel.

Definition source : Type := list ascii.

Section Art.
(** hashlib.md5(...).hexdigest, whether gcc accepts a C file, and whether a C file defines a function *)
Variable md5 : source -> string.
Variable compiles : source -> bool.
Variable defines : source -> string -> bool.

Inductive image : Type := Incomplete | Linked (c : source).
Record dir : Type := { cfile : option source; libs : string -> option image }.

Definition set_cfile (c : source) (d : dir) : dir := {| cfile := Some c; libs := libs d |}.
Definition set_lib (h : string) (i : image) (d : dir) : dir :=
  {| cfile := cfile d; libs := fun h' => if String.eqb h' h then Some i else libs d h' |}.

Definition nul : ascii := Ascii.zero.
(** write(2) of one byte at offset [k] *)
Definition write_at (k : nat) (a : ascii) (l : source) : source :=
  firstn k (l ++ repeat nul (k - length l)) ++ a :: skipn (S k) l.

(** where a build is (base.py:780-886), [src] being the C code of its model *)
Inductive pc : Type :=
| PStart                                        (** base.py:811, 834 the generator, about to open the C file *)
| PWrite (k : nat)                              (** base.py:834 [codegen.generate()], k bytes written *)
| PHash (acc : source)                          (** base.py:838-841 hashing, [acc] read so far *)
| PCheck (h : string)                           (** base.py:846 [exists(library_path)] *)
| PGcc (h : string)                             (** base.py:850-852 the compiler is about to read the C file *)
| POpen (h : string) (c : source)               (** base.py:850-852 compiled, about to create the library *)
| PLink (h : string) (c : source)               (** base.py:850-852 library created, about to be completed *)
| PLoad (h : string) (got : list (string * source)) (** base.py:856-877 the calls of [cas.external] *)
| PDone (r : result (list (string * source)))
| PKilled.

(** base.py:857, 875-877 the functions taken from the library, in the order of the calls *)
Definition wanted : list string := ["forward"; "implicit_con"; "implicit_jac"; "implicit_hess"].
(** base.py:840 [f.read(8192)] when the file holds [l] and [acc] has been read *)
Definition next_chunk (acc l : source) : source := firstn 8192 (skipn (length acc) l).

(** base.py:856-860, 874-877 one call of [cas.external(f, library_path)]; the function loaded is the one compiled from the source [c] *)
Definition external (d : dir) (h f : string) : result source :=
  match libs d h with
  | Some (Linked c) => if defines c f then Ok c else Raise RuntimeError
  | _ => Raise RuntimeError
  end.

(** base.py:780-886 [_make_casadi_model_algebra_cons] from [codegen.generate()] on, one operation *)
Definition pstep (src : source) (p : pc) (d : dir) : pc * dir :=
  match p with
  | PStart => (PWrite 0, set_cfile [] d)
  | PWrite k =>
      match nth_error src k with
      | None => (PHash [], d)
      | Some a => match cfile d with Some l => (PWrite (S k), set_cfile (write_at k a l) d) | None => (PDone (Raise FileNotFoundError), d) end
      end
  | PHash acc =>
      match cfile d with
      | None => (PDone (Raise FileNotFoundError), d)
      | Some l => match next_chunk acc l with [] => (PCheck (md5 acc), d) | b => (PHash (acc ++ b), d) end
      end
  | PCheck h => match libs d h with Some _ => (PLoad h [], d) | None => (PGcc h, d) end
  | PGcc h =>
      match cfile d with
      | None => (PLoad h [], d)
      | Some c => if compiles c then (POpen h c, d) else (PLoad h [], d)
      end
  | POpen h c => (PLink h c, set_lib h Incomplete d)
  | PLink h c => (PLoad h [], set_lib h (Linked c) d)
  | PLoad h got =>
      match nth_error wanted (length got) with
      | None => (PDone (Ok got), d)
      | Some f => match external d h f with Ok c => (PLoad h (got ++ [(f, c)]), d) | Raise e => (PDone (Raise e), d) end
      end
  | PDone _ | PKilled => (p, d)
  end.

(** the compiler process dies (base.py:851-852: the return code is not looked at) *)
Definition gcc_dies (p : pc) : pc := match p with PGcc h | POpen h _ | PLink h _ => PLoad h [] | _ => p end.
(** the process is killed, with its compiler *)
Definition killed (p : pc) : pc := match p with PDone _ => p | _ => PKilled end.

(** any number of builds in one directory *)
Record sys : Type := { builds : list (source * pc); files : dir }.
Inductive event : Type := Run (i : nat) | Kill (i : nat) | GccDies (i : nat).

Fixpoint set_pc (i : nat) (p : pc) (l : list (source * pc)) : list (source * pc) :=
  match l, i with
  | [], _ => []
  | (s, _) :: r, O => (s, p) :: r
  | x :: r, S j => x :: set_pc j p r
  end.

Definition sstep (s : sys) (e : event) : sys :=
  match e with
  | Run i => match nth_error (builds s) i with
             | Some (src, p) => let '(p', d) := pstep src p (files s) in {| builds := set_pc i p' (builds s); files := d |}
             | None => s
             end
  | Kill i => match nth_error (builds s) i with Some (_, p) => {| builds := set_pc i (killed p) (builds s); files := files s |} | None => s end
  | GccDies i => match nth_error (builds s) i with Some (_, p) => {| builds := set_pc i (gcc_dies p) (builds s); files := files s |} | None => s end
  end.
Definition srun (s : sys) (l : list event) : sys := fold_left sstep l s.

(** ** the parameters of the model around a build *)
Context {V : Type}.
(** base.py:443-445 [apply_and_forward_with_arrays]: [set_recursive_params] with the symbols, then the model's own [forward] *)
Definition traced (m : model V) (syms : ptree V) (forward : model V -> result source) : model V * result source :=
  match set_rec m syms with
  | (m', Some e) => (m', Raise e)
  | (m', None) => (m', forward m')
  end.
(** base.py:630-659 [make_model_algebra_cons] with backend "casadi": tracing, then the build, then the parameters again *)
Definition make_casadi (m : model V) (syms : ptree V) (forward : model V -> result source)
    (build : source -> result (list (string * source))) : model V * result (list (string * source)) :=
  match from_dict (to_dict (get_rec m)) with
  | Raise e => (m, Raise e)
  | Ok saved =>
      match traced m syms forward with
      | (m1, Raise e) => (m1, Raise e)
      | (m1, Ok src) =>
          match build src with
          | Raise e => (m1, Raise e)
          | Ok fns => match set_rec m1 saved with (m2, None) => (m2, Ok fns) | (m2, Some e) => (m2, Raise e) end
          end
      end
  end.
(** base.py:888-949 [export_c_code]: [generate] is the code generator writing the file (or raising); the new state and the code written *)
Definition export_c_code (m : model V) (syms : ptree V) (forward : model V -> result source) (generate : source -> result source)
    : model V * result source :=
  let params := get_rec m in
  match traced m syms forward with
  | (m1, Raise e) => (m1, Raise e)
  | (m1, Ok src) =>
      match generate src with
      | Raise e => (m1, Raise e)
      | Ok c => match set_rec m1 params with (m2, None) => (m2, Ok c) | (m2, Some e) => (m2, Raise e) end
      end
  end.
End Art.
Global Arguments next_chunk : simpl never.
