(** Model of [SourceManagedClassDeprecated], solcore/source_managed_class.py:11-47: the earlier
    base class of the databases, on the files and dictionaries of SourcesModel.v. *)
From stdpp Require Import gmap strings list.
From Verif Require Import Common ConfigModel SourcesModel.

(** __init__ with initialise_cache, lines 17-20 and 42-47. *)
Definition old_init : managed := mkManaged [] ∅.
(** add_source, lines 22-25, with the branch of [read] it takes, 40. *)
Definition old_add (fs : files) (m : managed) (name path : string) : managed :=
  mkManaged (dict_set (sources m) name path) (read_file fs (database m) path).
(** read() without a name, lines 35-38. *)
Definition old_read_all (fs : files) (m : managed) : managed :=
  mkManaged (sources m) (read_files fs ∅ (sources m).*2).
(** The path of a name, line 40. *)
Definition path_of (m : managed) (name : string) : option string :=
  match List.find (fun p => String.eqb p.1 name) (sources m) with Some p => Some p.2 | None => None end.
(** read(name), lines 33-40. *)
Definition old_read (fs : files) (m : managed) (name : option string) : managed * option exn :=
  match name with
  | None => (old_read_all fs m, None)
  | Some n =>
      match path_of m n with
      | Some p => (mkManaged (sources m) (read_file fs (database m) p), None)
      | None => (m, Some KeyError)
      end
  end.
(** remove_source, lines 27-31. *)
Definition old_remove (fs : files) (m : managed) (name : string) (reread : bool) : managed * option exn :=
  if dict_mem (sources m) name then
    let m1 := mkManaged (dict_del (sources m) name) (database m) in
    (if reread then old_read_all fs m1 else m1, None)
  else (m, Some KeyError).
(** The calls of the class, lines 22-40. *)
Inductive old_op := OAdd (name path : string) | ORemove (name : string) (reread : bool) | ORead (name : option string).
(** One call, lines 22-40. *)
Definition old_step (fs : files) (m : managed) (x : old_op) : managed * option exn :=
  match x with
  | OAdd n p => (old_add fs m n p, None)
  | ORemove n r => old_remove fs m n r
  | ORead n => old_read fs m n
  end.
(** Calls one after the other; exceptions are caught by the caller, lines 22-40. *)
Definition old_run (fs : files) (xs : list old_op) (m : managed) : managed :=
  fold_left (fun m x => (old_step fs m x).1) xs m.
