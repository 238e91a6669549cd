(** Model of [solcore/config_tools.py], class [SolcoreConfig] (lines 16-284). *)
From stdpp Require Import gmap strings list.
From Verif Require Import Common.

(** A ConfigParser content: section -> option -> value.
    Models the [ConfigParser] objects of config_tools.py:22-25.
    Simplified: the special DEFAULT section, the order of sections and the
    [%]-interpolation of values are not modelled ([accepts] below stands for
    the check ConfigParser makes before storing a value). *)
Notation conf := (gmap string (gmap string string)).

(** [_user_data[s][o]] as an optional read; config_tools.py:93. *)
Definition cget (c : conf) (s o : string) : option string :=
  match c !! s with Some os => os !! o | None => None end.

(** One line of the text written by [ConfigParser.write]; config_tools.py:62-63.
    Simplified: escaping of blanks, comments and line breaks is not modelled. *)
Inductive line : Type :=
| LSec : string -> line
| LOpt : string -> string -> line.

(** [ConfigParser.write], used at config_tools.py:63. *)
Definition render_section (p : string * gmap string string) : list line :=
  LSec p.1 :: map (fun q => LOpt q.1 q.2) (map_to_list p.2).
(** With [render_section], config_tools.py:63. *)
Definition render (c : conf) : list line :=
  flat_map render_section (map_to_list c).

(** [ConfigParser.read] of one file, used at config_tools.py:27, 31, 55: strict
    mode, so duplicate sections or options and options before the first
    section header are errors ([None]). *)
Fixpoint parse (ls : list line) (cur : option string) (acc : conf) : option conf :=
  match ls with
  | [] => Some acc
  | LSec s :: ls' =>
      match acc !! s with
      | Some _ => None
      | None => parse ls' (Some s) (<[s := ∅]> acc)
      end
  | LOpt o v :: ls' =>
      match cur with
      | None => None
      | Some s =>
          match acc !! s with
          | None => None
          | Some os =>
              match os !! o with
              | Some _ => None
              | None => parse ls' cur (<[s := <[o := v]> os]> acc)
              end
          end
      end
  end.
(** With [parse], config_tools.py:27, 31, 55. *)
Definition parse_file (ls : list line) : option conf := parse ls None ∅.

(** Reading a file into a parser that already holds data: the new values win,
    what the file does not mention stays; config_tools.py:55. *)
Definition merge_conf (new old : conf) : conf :=
  union_with (fun n o => Some (n ∪ o)) new old.

(** The object of class SolcoreConfig together with the user's file on disk.
    [dflt] is [_default_data], [user] is [_user_data] (config_tools.py:22-25);
    [observers] is [_observers] (21), a callback being a number; [disk] is the
    content of [user_config], [None] when the file does not exist; [log] lists
    the calls made to callbacks, in order, as (callback, source, value)
    (79-88). Simplified: callbacks do not raise. *)
Record cfg := mkCfg {
  dflt : conf;
  user : conf;
  disk : option (list line);
  observers : gmap string (list nat);
  log : list (nat * string * string)
}.

(** [_save_user_config], config_tools.py:57-63: opening with "w" truncates, then
    the lines are written one after the other.  [save_trace] lists the disk
    contents that exist over time (crash points), at line granularity. *)
Definition save_trace (before : option (list line)) (u : conf)
  : list (option (list line)) :=
  before :: map (fun n => Some (take n (render u))) (seq 0 (S (length (render u)))).
(** [_save_user_config] run to the end; config_tools.py:57-63. *)
Definition save (k : cfg) : cfg :=
  mkCfg (dflt k) (user k) (Some (render (user k))) (observers k) (log k).

(** [_notify_observers], config_tools.py:79-88. *)
Definition notify (k : cfg) (s o v : string) : cfg :=
  mkCfg (dflt k) (user k) (disk k) (observers k)
        (log k ++ map (fun cb => (cb, o, v)) (default [] (observers k !! s))).

(** Replace [_user_data] (for [set_item], config_tools.py:101-108). *)
Definition set_user (k : cfg) (u : conf) : cfg :=
  mkCfg (dflt k) u (disk k) (observers k) (log k).

(** [accepts v]: ConfigParser's [before_set] check passes for the value [v]
    (it rejects malformed percent sequences with ValueError). *)
Section Ops.
Context (accepts : string -> bool).

(** [__setitem__] with a pair key, config_tools.py:101-108. *)
Definition set_item (k : cfg) (s o v : string) : cfg * option exn :=
  match user k !! s with
  | None => (k, Some KeyError)
  | Some os =>
      if accepts v then
        (notify (save (set_user k (<[s := <[o := v]> os]> (user k)))) s o v, None)
      else (k, Some ValueError)
  end.

(** [remove_source], config_tools.py:119-138.  [options(section)] raises
    NoSectionError for a section the defaults do not have; [remove_option]
    raises it for a section the user data does not have. *)
Definition remove_source (k : cfg) (s o : string) : cfg * option exn :=
  match dflt k !! s with
  | None => (k, Some NoSectionError)
  | Some ds =>
      match ds !! o with
      | Some _ => set_item k s o ""
      | None =>
          match user k !! s with
          | None => (k, Some NoSectionError)
          | Some os => (save (set_user k (<[s := delete o os]> (user k))), None)
          end
      end
  end.

(** [str(show)] of a Python bool (for [flag], config_tools.py:176-195). *)
Definition bool_str (b : bool) : string := if b then "True" else "False".
(** [welcome_message] and [verbose_loading] (the option name is the argument),
    config_tools.py:176-195; reading a missing option raises KeyError. *)
Definition flag (k : cfg) (o : string) (show : option bool) : cfg * res bool :=
  let r := match show with
           | Some b => set_item k "Configuration" o (bool_str b)
           | None => (k, None)
           end in
  match snd r with
  | Some e => (fst r, Err e)
  | None =>
      (fst r, match cget (user (fst r)) "Configuration" o with
              | Some v => Ok (String.eqb v "True")
              | None => Err KeyError
              end)
  end.

(** [restore_default_source], config_tools.py:140-157. *)
Definition restore_default_source (k : cfg) (s o : string) : cfg * option exn :=
  match dflt k !! s with
  | None => (k, Some NoSectionError)
  | Some ds =>
      match ds !! o with
      | None => (k, None)
      | Some v => set_item k s o v
      end
  end.

(** The (section, option, value) triples in the order the two nested loops of
    [restore_defaults] visit them, config_tools.py:164-166. *)
Definition triples (c : conf) : list (string * string * string) :=
  flat_map (fun p => map (fun q => (p.1, q.1, q.2)) (map_to_list p.2)) (map_to_list c).

(** The nested loops, config_tools.py:164-166: [_user_data[s]] raises KeyError
    for a section missing in the user data; what was assigned before stays. *)
Fixpoint restore_loop (l : list (string * string * string)) (u : conf)
  : conf * option exn :=
  match l with
  | [] => (u, None)
  | (s, o, v) :: l' =>
      match u !! s with
      | None => (u, Some KeyError)
      | Some os => restore_loop l' (<[s := <[o := v]> os]> u)
      end
  end.

(** [restore_defaults], config_tools.py:159-167: the save on line 167 is not
    reached when the loop raises. *)
Definition restore_defaults (k : cfg) : cfg * option exn :=
  match restore_loop (triples (dflt k)) (user k) with
  | (u, None) => (save (set_user k u), None)
  | (u, Some e) => (set_user k u, Some e)
  end.

(** [reset_defaults], config_tools.py:39-55.  [response in "Yy"] is a substring
    test, true for the empty answer as well. *)
Definition reset_defaults (k : cfg) (confirm : bool) (response : string)
  : cfg * option exn :=
  if confirm || existsb (String.eqb response) [""; "Y"; "y"; "Yy"]
  then (mkCfg (dflt k) (merge_conf (dflt k) (user k)) (Some (render (dflt k)))
              (observers k) (log k), None)
  else (k, None).

(** [register_observer], config_tools.py:65-77. *)
Definition register_observer (k : cfg) (s : string) (cb : nat) : cfg * option exn :=
  match user k !! s with
  | None => (k, Some KeyError)
  | Some _ =>
      (mkCfg (dflt k) (user k) (disk k)
             (<[s := default [] (observers k !! s) ++ [cb]]> (observers k)) (log k), None)
  end.

(** [__init__], config_tools.py:17-37, on default data [d] and disk content
    [dk].  Simplified: the substitution of SOLCORE_ROOT inside the version
    string ([__getitem__], 90-99) is not modelled. *)
Definition load (d : conf) (dk : option (list line)) : res cfg :=
  let start :=
    match dk with
    | None => Ok (fst (reset_defaults (mkCfg d ∅ None ∅ []) true ""))
    | Some ls =>
        match parse_file ls with
        | None => Err ParsingError
        | Some u => Ok (mkCfg d u dk ∅ [])
        end
    end in
  let! k := start in
  match user k !! "Configuration" with
  | None => Err NoSectionError
  | Some os =>
      match os !! "version" with
      | None =>
          match restore_defaults k with
          | (k', None) => Ok k'
          | (_, Some e) => Err e
          end
      | Some ver =>
          match cget d "Configuration" "version" with
          | None => Err KeyError
          | Some dver =>
              if String.eqb ver dver then Ok k
              else
                match restore_defaults k with
                | (k', None) => Ok k'
                | (_, Some e) => Err e
                end
          end
      end
  end.

(** The public operations that change a configuration; config_tools.py:39-167.
    welcome_message, verbose_loading, spice, smarts, units, parameters and
    materials (169-271) are [OSet] on a fixed section. *)
Inductive op : Type :=
| OSet : string -> string -> string -> op
| ORemove : string -> string -> op
| ORestoreSource : string -> string -> op
| ORestoreAll : op
| OReset : bool -> string -> op
| ORegister : string -> nat -> op.

(** One call; the exception, if any, is returned next to the new state (by [restore_default_source], config_tools.py:140-157, [restore_defaults], config_tools.py:159-167, line 167, [reset_defaults], config_tools.py:39-55, [register_observer], config_tools.py:65-77). *)
Definition step (k : cfg) (x : op) : cfg * option exn :=
  match x with
  | OSet s o v => set_item k s o v
  | ORemove s o => remove_source k s o
  | ORestoreSource s o => restore_default_source k s o
  | ORestoreAll => restore_defaults k
  | OReset c r => reset_defaults k c r
  | ORegister s cb => register_observer k s cb
  end.

(** A history of calls; the caller catches exceptions and goes on (lines 16-284). *)
Definition run (k : cfg) (h : list op) : cfg :=
  fold_left (fun k x => fst (step k x)) h k.

End Ops.
