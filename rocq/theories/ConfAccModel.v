(** Model of the accessors of solcore/config_tools.py:90-99, 110-117, 169-271 and of its
    deprecated functions, lines 287-614. *)
From stdpp Require Import gmap strings list.
From Verif Require Import Common ConfigModel MatTextModel.

Section Access.
(** [accepts]: as in ConfigModel.v; [root]: SOLCORE_ROOT, config_tools.py:13. *)
Context (accepts : string -> bool) (root : string).

(** [__getitem__] with a pair, config_tools.py:92-95; a missing section or option is a
    KeyError of the parser. *)
Definition get_item (k : cfg) (s o : string) : res string :=
  match cget (user k) s o with
  | Some v => Ok (MatTextModel.replace "SOLCORE_ROOT" root v)
  | None => Err KeyError
  end.
(** [__getitem__] with the name of a section, then an option of what it returns,
    config_tools.py:96-97. *)
Definition get_section_item (k : cfg) (s o : string) : res string :=
  match cget (user k) s o with Some v => Ok v | None => Err KeyError end.
(** [sources], config_tools.py:115-117.  Simplified: the order is that of the map. *)
Definition sources (k : cfg) (s : string) : res (list string) :=
  match user k !! s with
  | None => Err NoSectionError
  | Some os => Ok (map fst (map_to_list os))
  end.
(** What an accessor returns: a list of names or a path, config_tools.py:230-233. *)
Inductive answer := Names (l : list string) | Path (p : string).
(** Lines 231-233, 249-251, 269-271 and 203-205, 213-215 *)
Definition set_get (k : cfg) (s o : string) (location : option string) : cfg * res answer :=
  let r := match location with
           | Some v => set_item accepts k s o v
           | None => (k, None)
           end in
  match snd r with
  | Some e => (fst r, Err e)
  | None => (fst r, let! p := get_item (fst r) s o in Ok (Path p))
  end.
(** [units], [parameters], [materials] (217-271): [s] is their section. *)
Definition access (s : string) (k : cfg) (name location : option string) : cfg * res answer :=
  match name with
  | None => (k, let! l := sources k s in Ok (Names l))
  | Some o => set_get k s o location
  end.
(** [units], config_tools.py:217-233 *)
Definition units := access "Units".
(** [parameters], config_tools.py:235-251 *)
Definition parameters := access "Parameters".
(** [materials], config_tools.py:253-271 *)
Definition materials := access "Materials".
(** [spice], config_tools.py:197-205 *)
Definition spice (k : cfg) (location : option string) := set_get k "External programs" "spice" location.
(** [smarts], config_tools.py:207-215 *)
Definition smarts (k : cfg) (location : option string) := set_get k "External programs" "smarts" location.

(** * The deprecated functions, config_tools.py:287-614 *)
(** Their calls, config_tools.py:287-614 *)
Inductive call :=
| DReset (confirm : bool) (response : string) | DSave
| DRemove (s o : string) | DAdd (s o v : string) | DRestore (s o : string)
| DAddUnits (o v : string) | DAddParameters (o v : string) | DAddMaterials (o v : string)
| DRemoveUnits (o : string) | DRemoveParameters (o : string) | DRemoveMaterials (o : string)
| DRestoreUnits (o : string) | DRestoreParameters (o : string) | DRestoreMaterials (o : string)
| DWelcome (b : bool) | DVerbose (b : bool) | DSpice (v : string) | DSmarts (v : string)
| DPrint | DCheck.
(** The result of a call dropped, config_tools.py:388, 406, 424 *)
Definition exn_of {A} (r : cfg * res A) : cfg * option exn :=
  (fst r, match snd r with Ok _ => None | Err e => Some e end).
(** An attribute the object does not have, config_tools.py:352, 568, 584, 614 *)
Definition no_method (k : cfg) : cfg * option exn := (k, Some AttributeError).
(** config_tools.py:287-614: results are dropped; the warnings are left out. *)
Definition deprecated (k : cfg) (x : call) : cfg * option exn :=
  match x with
  | DReset c r => ConfigModel.reset_defaults k c r        (* 287-299 *)
  | DSave => (save k, None)                               (* 302-314 *)
  | DRemove s o => ConfigModel.remove_source accepts k s o (* 317-333 *)
  | DAdd _ _ _ => no_method k                             (* 336-352: config.add_source *)
  | DRestore s o => ConfigModel.restore_default_source accepts k s o (* 355-370 *)
  | DAddUnits o v => exn_of (units k (Some o) (Some v))   (* 373-388 *)
  | DAddParameters o v => exn_of (parameters k (Some o) (Some v)) (* 391-406 *)
  | DAddMaterials o v => exn_of (materials k (Some o) (Some v))   (* 409-424 *)
  | DRemoveUnits o => ConfigModel.remove_source accepts k "Units" o (* 427-440 *)
  | DRemoveParameters o => ConfigModel.remove_source accepts k "Parameters" o (* 443-456 *)
  | DRemoveMaterials o => ConfigModel.remove_source accepts k "Materials" o (* 459-472 *)
  | DRestoreUnits o => ConfigModel.restore_default_source accepts k "Units" o (* 475-488 *)
  | DRestoreParameters o => ConfigModel.restore_default_source accepts k "Parameters" o (* 491-504 *)
  | DRestoreMaterials o => ConfigModel.restore_default_source accepts k "Materials" o (* 507-520 *)
  | DWelcome b => exn_of (flag accepts k "welcome_message" (Some b)) (* 523-536 *)
  | DVerbose b => exn_of (flag accepts k "verbose_loading" (Some b)) (* 539-552 *)
  | DSpice _ => no_method k                               (* 555-568 *)
  | DSmarts _ => no_method k                              (* 571-584 *)
  | DPrint => (k, None)                                   (* 587-599 *)
  | DCheck => no_method k                                 (* 602-614 *)
  end.
End Access.
