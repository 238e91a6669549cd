(** Model of [solcore/material_system/create_new_material.py], with the parts of the
    configuration, the parameter system and the material system that it goes through. *)
From stdpp Require Import gmap strings list.
From Verif Require Import Common ConfigModel SourcesModel.

(** [str.lower]; letters of ASCII only (for [set_material], create_new_material.py, line 58, solcore/__init__.py:59, material_system.py:30-32). *)
Definition lower_char (c : Ascii.ascii) : Ascii.ascii :=
  let n := Ascii.nat_of_ascii c in
  if Nat.leb 65 n && Nat.leb n 90 then Ascii.ascii_of_nat (n + 32) else c.
(** For [set_material], create_new_material.py, line 58, solcore/__init__.py:59, material_system.py:30-32. *)
Fixpoint lower (s : string) : string :=
  match s with EmptyString => EmptyString | String c r => String (lower_char c) (lower r) end.

(** What [parameterised_material] stores in a class, material_system.py:115-134: the folder of its data
    and the element of the alloy. *)
Record mclass := mkClass { c_dir : option string; c_alloy : option string }.
(** n_path and k_path, material_system.py:129-134 *)
Definition data_path (which : string) (c : mclass) : option string :=
  match c_dir c with
  | Some d => Some (d +:+ "/" +:+ which +:+ (match c_alloy c with Some _ => "" | None => ".txt" end))
  | None => None
  end.

(** The files and the objects.  [confs]: files that ConfigParser reads; [plain]: other files;
    [cfg_params], [cfg_mats]: the sections Parameters and Materials of the configuration, which is saved
    at every change (config_tools.py:101-106); [psys]: the parameter system; [msys]: the sources of the
    material system (material_system.py:26-32); [known]: its known_materials (25).
    Simplified: folders are not files and can always be made; the other sections and the check of
    percent signs are left out. *)
Record world := World {
  confs : gmap string conf;
  plain : gmap string string;
  cfg_params : list (string * string);
  cfg_mats : list (string * string);
  psys : managed;
  msys : gmap string string;
  known : gmap string mclass
}.
(** With [world], config_tools.py:101-106, material_system.py:26-32. *)
Inductive outcome := Created | Declined | Failed.

Section New.
Context (user_folder : string).
(** create_new_material.py:29 *)
Definition param_path : string := user_folder +:+ "/custom_parameters.txt".
(** create_new_material.py:35, 50 *)
Definition folder (name : string) : string := user_folder +:+ "/custom_materials/" +:+ name +:+ "-Material".
(** With [folder], create_new_material.py:35, 50. *)
Definition n_file (name : string) : string := folder name +:+ "/n.txt".
(** With [folder], create_new_material.py:35, 50. *)
Definition k_file (name : string) : string := folder name +:+ "/k.txt".

(** Lines 30-33.  Setting the option calls the observer [ParameterSystem.read] (solcore/__init__.py:52). *)
Definition register_custom (w : world) : world :=
  if dict_mem (cfg_params w) "custom" then w else
  let fs := match confs w !! param_path with Some _ => confs w | None => <[param_path := ∅]> (confs w) end in
  World fs (plain w) (dict_set (cfg_params w) "custom" param_path) (cfg_mats w)
        (managed_read fs (psys w) (Some "custom") (Some param_path)) (msys w) (known w).

(** [copyfile], lines 55-56: a missing source and a copy onto itself raise. *)
Definition copyfile (fs : gmap string string) (src dst : string) : option (gmap string string) :=
  match fs !! src with
  | Some d => if String.eqb src dst then None else Some (<[dst := d]> fs)
  | None => None
  end.
(** With [copyfile], create_new_material.py, lines 55-56. *)
Definition with_plain (w : world) (fs : gmap string string) : world :=
  World (confs w) fs (cfg_params w) (cfg_mats w) (psys w) (msys w) (known w).

(** Line 58: the observer is [MaterialSystem.read] (solcore/__init__.py:59, material_system.py:30-32). *)
Definition set_material (w : world) (name : string) : world :=
  World (confs w) (plain w) (cfg_params w) (dict_set (cfg_mats w) name (folder name)) (psys w)
        (<[lower name := folder name]> (msys w)) (known w).

(** Lines 61-71: what is written to the file of parameters. *)
Definition new_params (w : world) (name : string) (psrc : option string) : conf :=
  match psrc with
  | Some p => read_files (confs w) ∅ [param_path; p]
  | None => <[name := ∅]> (read_files (confs w) ∅ [param_path])
  end.
(** Lines 61-74 *)
Definition write_params (w : world) (name : string) (psrc : option string) : world :=
  let fs := <[param_path := new_params w name psrc]> (confs w) in
  World fs (plain w) (cfg_params w) (cfg_mats w) (managed_read fs (psys w) None None) (msys w) (known w).

(** Lines 38-41 *)
Definition exists_already (w : world) (name : string) : bool :=
  match database (psys w) !! name with Some _ => true | None => dict_mem (cfg_mats w) name end.
(** create_new_material, lines 15-74; [answer] is what the user types. *)
Definition create (w0 : world) (name n_src k_src : string) (psrc : option string) (overwrite : bool) (answer : string)
  : world * outcome :=
  let w := register_custom w0 in
  if exists_already w name && negb overwrite && negb (String.eqb (lower answer) "y") then (w, Declined)
  else match copyfile (plain w) n_src (n_file name) with
       | None => (w, Failed)
       | Some fs =>
           match copyfile fs k_src (k_file name) with
           | None => (with_plain w fs, Failed)
           | Some fs' => (write_params (set_material (with_plain w fs') name) name psrc, Created)
           end
       end.
End New.

(** [MaterialSystem.material] and [parameterised_material] for a material of the database,
    material_system.py:72, 102-104, 109-139; other names ([None]) are left out. *)
Definition material (w : world) (name : string) : option (mclass * world) :=
  match database (psys w) !! name with
  | None => None
  | Some os =>
      match known w !! name with
      | Some c => Some (c, w)
      | None =>
          let c := mkClass (msys w !! lower name) (os !! "x") in
          Some (c, World (confs w) (plain w) (cfg_params w) (cfg_mats w) (psys w) (msys w) (<[name := c]> (known w)))
      end
  end.
(** The contents of the data file of a class (by [data_path], material_system.py:129-134). *)
Definition data_of (w : world) (which : string) (c : mclass) : option string :=
  match data_path which c with Some p => plain w !! p | None => None end.

(** A new session: solcore/__init__.py:51, 58; parameter_system.py:48; material_system.py:25-28. *)
Definition restart (w : world) : world :=
  World (confs w) (plain w) (cfg_params w) (cfg_mats w) (managed_init (confs w) (cfg_params w))
        (fold_left (fun d p => <[lower p.1 := p.2]> d) (cfg_mats w) ∅) ∅.
