(** Model of [solcore/source_managed_class.py], class [SourceManagedClass]
    (lines 50-69), the base of the parameter and unit systems. *)
From stdpp Require Import gmap strings list.
From Verif Require Import Common ConfigModel.

(** The files on disk: path -> parsed content.  [ConfigParser.read] skips files
    that cannot be opened ([None]); source_managed_class.py:58, 64, 67, 69.
    Simplified: files that exist are well formed and do not change. *)
Definition files := gmap string conf.

(** The object: [sources] is an insertion-ordered dict name -> path, [database]
    the ConfigParser (source_managed_class.py:55-57). *)
Record managed := mkManaged {
  sources : list (string * string);
  database : conf
}.

(** [database.read(path)]: what the file defines overrides, the rest stays;
    source_managed_class.py:64. *)
Definition read_file (fs : files) (db : conf) (path : string) : conf :=
  match fs !! path with
  | Some c => merge_conf c db
  | None => db
  end.
(** [database.read(paths)]; source_managed_class.py:58, 67, 69. *)
Definition read_files (fs : files) (db : conf) (paths : list string) : conf :=
  fold_left (read_file fs) paths db.

(** dict assignment: an existing key keeps its place; source_managed_class.py:63. *)
Fixpoint dict_set (l : list (string * string)) (k v : string) : list (string * string) :=
  match l with
  | [] => [(k, v)]
  | (k', v') :: l' => if String.eqb k' k then (k', v) :: l' else (k', v') :: dict_set l' k v
  end.
(** dict deletion; source_managed_class.py:66. *)
Definition dict_del (l : list (string * string)) (k : string) : list (string * string) :=
  filter (fun p => String.eqb p.1 k = false) l.
(** dict membership; source_managed_class.py:65. *)
Definition dict_mem (l : list (string * string)) (k : string) : bool :=
  existsb (fun p => String.eqb p.1 k) l.

(** [__init__], source_managed_class.py:53-58 (the Singleton metaclass, which
    returns the first instance on later constructions, is not modelled). *)
Definition managed_init (fs : files) (srcs : list (string * string)) : managed :=
  mkManaged srcs (read_files fs ∅ srcs.*2).

(** [read(source, value)], source_managed_class.py:60-69.  This is also the
    callback that the configuration calls (solcore/__init__.py:30, 52, 59). *)
Definition managed_read (fs : files) (m : managed)
    (source value : option string) : managed :=
  match source, value with
  | Some s, Some v =>
      mkManaged (dict_set (sources m) s v) (read_file fs (database m) v)
  | Some s, None =>
      if dict_mem (sources m) s then
        let srcs := dict_del (sources m) s in
        mkManaged srcs (read_files fs (database m) srcs.*2)
      else mkManaged (sources m) (read_files fs (database m) (sources m).*2)
  | None, _ => mkManaged (sources m) (read_files fs (database m) (sources m).*2)
  end.

(** A history of calls to [read] (by [managed_read], source_managed_class.py:60-69, solcore/__init__.py:30, 52, 59). *)
Definition managed_run (fs : files) (m : managed)
    (h : list (option string * option string)) : managed :=
  fold_left (fun m c => managed_read fs m c.1 c.2) h m.
