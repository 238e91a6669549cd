(** Model of the material system (material_system/material_system.py): the cache of
    material classes ([MaterialSystem], lines 20-272), the instances ([BaseMaterial.__init__],
    lines 287-299) and the derived attributes ([BaseMaterial.__getattr__], 301-360). *)
From Coq Require Import Reals String Ascii List Bool.
From Verif Require Import Common ParamModel PhysConst MobilityModel.
From Coq Require Import List.
Import ListNotations.
Open Scope string_scope.
Open Scope R_scope.
Open Scope list_scope.

(** [str.lower()] on ASCII text (for [read], material_system.py, lines 30-32). *)
Definition lower_char (a : ascii) : ascii :=
  let n := nat_of_ascii a in
  if (Nat.leb 65 n && Nat.leb n 90)%bool then ascii_of_nat (n + 32) else a.
(** For [read], material_system.py, lines 30-32. *)
Fixpoint lower (s : string) : string :=
  match s with EmptyString => EmptyString | String a s' => String (lower_char a) (lower s') end.

(** * The classes *)

(** The three ways to create a class, lines 112-139, 141-215 and 217-272. *)
Inductive mkind := Parameterised | Sopra | Nk.
(** A material class: its identity, how it was made, material_string (nk classes keep the
    "Unnamed" of line 279; the name they were made for is [c_name] all the same, it is
    bound in their methods), the composition and the directory of optical data with the
    file extension of lines 127-134. *)
Record mclass := mkClass { c_id : nat; c_kind : mkind; c_name : string; c_comp : list string;
                           c_dir : option (string * string) }.
(** The dictionary of known materials and of sources, the database of the parameter
    system, and a supply of identities (for [read], material_system.py, lines 30-32). *)
Record mstate := mkM { m_known : list (string * mclass); m_sources : list (string * string);
                       m_db : database; m_next : nat }.
(** Assignment to a dictionary (for [read], material_system.py, lines 30-32). *)
Definition dset {A} (k : string) (v : A) (l : list (string * A)) : list (string * A) := (k, v) :: ParamModel.remove k l.

Section System.
(** The SOPRA library: does it have a material of this name (a regular expression match,
    sopra_db.py:37-62), and the variable element of a compound (compounds.txt). *)
Context (sopra_has : string -> bool) (sopra_x : string -> option string).

(** [read], lines 30-32. *)
Definition read (st : mstate) (source value : string) : mstate :=
  mkM (m_known st) (dset (lower source) value (m_sources st)) (m_db st) (m_next st).

(** Lines 64-103: the suffix and the final value of [sopra]; the message for unknown
    materials (79-100) asks a question and leaves the program. *)
Definition suffix_of (st : mstate) (name : string) (sopra nk : bool) : res (string * bool) :=
  if sopra then Ok (if sopra_has name then "_sopra" else "", true)
  else if nk then Ok ("_nk", false)
  else match lookup (m_db st) name with
       | Some _ => Ok ("", false)
       | None => if sopra_has name then Ok ("_sopra", true) else Err SystemExit
       end.

(** Registration of a new class under a key (for [parameterised_material], material_system.py, lines 112-139). *)
Definition register (st : mstate) (key : string) (mk : nat -> mclass) : mstate * res mclass :=
  let c := mk (m_next st) in
  (mkM (dset key c (m_known st)) (m_sources st) (m_db st) (S (m_next st)), Ok c).

(** [parameterised_material], lines 112-139; a missing section raises NoSectionError. *)
Definition parameterised_material (st : mstate) (name : string) : mstate * res mclass :=
  match lookup (m_db st) name with
  | None => (st, Err NoSectionError)
  | Some opts =>
      let comp := match lookup opts "x" with Some x => [x] | None => [] end in
      let dir := match lookup (m_sources st) (lower name) with
                 | Some d => Some (d, match comp with [] => ".txt" | _ => "" end)
                 | None => None
                 end in
      register st name (fun i => mkClass i Parameterised name comp dir)
  end.
(** [sopra_material], lines 141-215: the class body looks the material up (line 152). *)
Definition sopra_material (st : mstate) (name : string) : mstate * res mclass :=
  if sopra_has name then
    register st (name ++ "_sopra")%string (fun i => mkClass i Sopra name (match sopra_x name with Some x => [x] | None => [] end) None)
  else (st, Err SOPRAError).
(** [nk_material], lines 217-272. *)
Definition nk_material (st : mstate) (name : string) : mstate * res mclass :=
  register st (name ++ "_nk")%string (fun i => mkClass i Nk name [] None).

(** [material], lines 34-110. *)
Definition material (st : mstate) (name : string) (sopra nk : bool) : mstate * res mclass :=
  match suffix_of st name sopra nk with
  | Err e => (st, Err e)
  | Ok (suffix, sopra') =>
      match lookup (m_known st) (name ++ suffix)%string with
      | Some c => (st, Ok c)
      | None =>
          if sopra' then sopra_material st name
          else if nk then nk_material st name
          else parameterised_material st name
      end
  end.

(** What can happen in a session; [Database] stands for any change of the parameter
    system's sources (for [mstart], material_system.py, lines 24-28). *)
Inductive mop := Read (source value : string) | Material (name : string) (sopra nk : bool) | Database (db : database).
(** By [read], material_system.py, lines 30-32, [material], material_system.py, lines 34-110. *)
Definition mstep (st : mstate) (o : mop) : mstate :=
  match o with
  | Read s v => read st s v
  | Material n sp nk => fst (material st n sp nk)
  | Database db => mkM (m_known st) (m_sources st) db (m_next st)
  end.
(** Lines 20-272, lines 287-299. *)
Definition mrun (st : mstate) (os : list mop) : mstate := fold_left mstep os st.
End System.

(** The session starts without materials, lines 24-28; [sources] are those of the
    configuration. *)
Definition mstart (sources : list (string * string)) (db : database) : mstate :=
  mkM [] (fold_left (fun l p => dset (lower (fst p)) (snd p) l) sources []) db 0.

(** * Instances *)

(** An instance: its class, the attributes set in [__init__] (numbers only), T and the
    names of the keyword arguments (for [instance], material_system.py, lines 287-299). *)
Record minst := mkInst { i_class : mclass; i_attrs : kwargs; i_T : R; i_main : R; i_keys : list string }.
(** [sorted] of a list of names (for [instance], material_system.py, lines 287-299). *)
Fixpoint insert_name (s : string) (l : list string) : list string :=
  match l with
  | [] => [s]
  | a :: l' => match String.compare s a with Gt => a :: insert_name s l' | _ => s :: l end
  end.
(** For [instance], material_system.py, lines 287-299. *)
Definition sorted_names (l : list string) : list string := fold_right insert_name [] l.
(** The composition must be among the keywords, lines 293-294. *)
Fixpoint needed (comp : list string) (kw : kwargs) : res unit :=
  match comp with
  | [] => Ok tt
  | e :: comp' => match lookup kw e with Some _ => needed comp' kw | None => Err KeyError end
  end.
(** [BaseMaterial.__init__], lines 287-299: Na and Nd are 1 unless given; T is not a
    keyword argument (it is bound to the parameter of that name). *)
Definition instance (c : mclass) (T : R) (kw : kwargs) : res minst :=
  let! _ := needed (c_comp c) kw in
  Ok (mkInst c (kw ++ [("Na", 1); ("Nd", 1)]) T
        (match c_comp c with e :: _ => match lookup kw e with Some x => x | None => 0 end | [] => 0 end)
        (sorted_names (map fst kw))).

(** * Derived attributes of parameterised materials *)

Section Attributes.
(** [ParameterSystem().get_parameter(material, parameter, **kwargs)], modelled in
    ParamModel, and the mobility data. *)
Context (gp : string -> string -> kwargs -> res R) (data : table).

(** Lines 357-360: the parameter at the instance's composition and temperature. *)
Definition comp_kwargs (m : minst) : kwargs :=
  flat_map (fun e => match lookup (i_attrs m) e with Some x => [(e, x)] | None => [] end) (c_comp (i_class m)) ++ [("T", i_T m)].
(** With [comp_kwargs], material_system.py, lines 357-360. *)
Definition plain (m : minst) (a : string) : res R :=
  match lookup (i_attrs m) a with Some x => Ok x | None => gp (c_name (i_class m)) a (comp_kwargs m) end.
(** [try: return ParameterSystem().get_parameter(self.material_string, attrname)
    except: ...], as in lines 313-317: neither composition nor temperature is passed. *)
Definition tabulated (m : minst) (a : string) (otherwise : res R) : res R :=
  match gp (c_name (i_class m)) a [] with Ok x => Ok x | Err _ => otherwise end.
(** 2 (2 pi m m0 kB T / h^2)^1.5, lines 334, 342-343. *)
Definition dos (mass T : R) : R := 2 * Rpower (2 * PI * mass * electron_mass * kb * T / (h * h)) (15 / 10).
(** The special names of lines 312-344 and 354-355, in terms of attributes that are not special. *)
Definition special (m : minst) (a : string) : res R :=
  if String.eqb a "electron_affinity" then
    tabulated m a (let! v := plain m "valence_band_offset" in let! g := plain m "band_gap" in
                   Ok ((17 / 100 + 459 / 100) * q - v - g))
  else if String.eqb a "electron_mobility" then
    tabulated m a (let! n := plain m "Nd" in calculate_mobility data (c_name (i_class m)) false n (i_main m) 0 300)
  else if String.eqb a "hole_mobility" then
    tabulated m a (let! n := plain m "Na" in calculate_mobility data (c_name (i_class m)) true n (i_main m) 0 300)
  else if String.eqb a "Nc" then
    tabulated m a (let! me := plain m "eff_mass_electron" in Ok (dos me (i_T m)))
  else if String.eqb a "Nv" then
    tabulated m a (let! mh := plain m "eff_mass_hh_z" in let! ml := plain m "eff_mass_lh_z" in
                   Ok (dos mh (i_T m) + dos ml (i_T m)))
  else if String.eqb a "permittivity" then
    let! e := plain m "relative_permittivity" in Ok (e * vacuum_permittivity)
  else gp (c_name (i_class m)) a (comp_kwargs m).
(** An attribute: one set on the instance wins, otherwise [__getattr__] is called (for [attr], material_system.py, line 346). *)
Definition attr1 (m : minst) (a : string) : res R :=
  match lookup (i_attrs m) a with Some x => Ok x | None => special m a end.
(** Line 346: the intrinsic density from the other attributes; every other name as above.
    (n, k and radiative_recombination are functions or integrals of functions and not
    part of this model.) *)
Definition attr (m : minst) (a : string) : res R :=
  match lookup (i_attrs m) a with
  | Some x => Ok x
  | None =>
      if String.eqb a "ni" then
        let! nc := attr1 m "Nc" in let! nv := attr1 m "Nv" in let! g := attr1 m "band_gap" in
        Ok (sqrt (nc * nv * exp (- g / (kb * i_T m))))
      else special m a
  end.
End Attributes.
