(** Model of solcore/light_source/smarts.py:38-44 ([skipper]), 47-123
    ([calculate_spectrum_smarts]), 126-223 ([build_smarts_file]), 226-357
    ([get_default_smarts_object]) and of solcore/light_source/light_source.py:308-383
    ([_get_spectral2_spectrum], [_get_smarts_spectrum]). *)
From Coq Require Import Reals ZArith QArith Ascii String List Arith Bool.
From Verif Require Import Common InterpModel NpModel.
From Coq Require Import List.
Import ListNotations.
Open Scope string_scope.
Open Scope list_scope.

(** * Dictionaries of options *)
Section Dict.
Context {A : Type}.
(** light_source.py:359 [options[k]]: the lookup. *)
Fixpoint get (o : list (string * A)) (k : string) : option A :=
  match o with
  | [] => None
  | (k', v) :: r => if String.eqb k' k then Some v else get r k
  end.
(** light_source.py:318, 351, 356 [d[k] = v]: in place, or at the end. *)
Fixpoint put (o : list (string * A)) (k : string) (v : A) : list (string * A) :=
  match o with
  | [] => [(k, v)]
  | (k', v') :: r => if String.eqb k' k then (k, v) :: r else (k', v') :: put r k v
  end.
(** light_source.py:316-318, 349-351 and 140-142:
    [for opt in options: if opt in default: default[opt] = options[opt]]. *)
Definition override (default options : list (string * A)) : list (string * A) :=
  fold_left (fun d p => match get d (fst p) with Some _ => put d (fst p) (snd p) | None => d end)
            options default.
(** light_source.py:320, 353 [options.update(default)]. *)
Definition update (options default : list (string * A)) : list (string * A) :=
  fold_left (fun o p => put o (fst p) (snd p)) default options.
(** light_source.py:314-320 and 347-353: the options after the merge. *)
Definition merged (default options : list (string * A)) : list (string * A) :=
  update options (override default options).
End Dict.

(** The value of an option (smarts.py:298-355), what it compares as and its text in the file.
    (Simplification: a float is a rational number; True and False are the integers 1 and 0.) *)
Inductive num : Type := Int : Z -> num | Flt : Q -> num | Txt : num.
(** With [num], smarts.py:298-355. *)
Record sval : Type := Val { v_txt : string; v_num : num }.
Notation sdict := (list (string * sval)).
(** smarts.py:134 and others, [kwargs[k]]. *)
Definition item (o : sdict) (k : string) : res sval :=
  match get o k with Some v => Ok v | None => Err KeyError end.

(** * smarts.py:126-223 [build_smarts_file] *)
(** smarts.py:143 and others, [kwargs[k] == z]. *)
Definition equals (o : sdict) (k : string) (z : Z) : res bool :=
  let! v := item o k in
  Ok (match v_num v with
      | Int x => Z.eqb x z
      | Flt q => Qeq_bool q (inject_Z z)
      | Txt => false
      end).
(** smarts.py:187 [kwargs["IPRT"] >= 1]; a text cannot be compared. *)
Definition at_least (o : sdict) (k : string) (z : Z) : res bool :=
  let! v := item o k in
  match v_num v with
  | Int x => Ok (Z.leb z x)
  | Flt q => Ok (Qle_bool (inject_Z z) q)
  | Txt => Err TypeError
  end.
(** smarts.py:130-134 and others, [l[kwargs[k]]]: only an integer can be an index, and a negative
    one counts from the end. *)
Definition pick (o : sdict) (k : string) (l : list string) : res string :=
  let! v := item o k in
  match v_num v with
  | Int x =>
      let y := if Z.ltb x 0 then (x + Z.of_nat (length l))%Z else x in
      if Z.ltb y 0 then Err IndexError
      else match nth_error l (Z.to_nat y) with Some cd => Ok cd | None => Err IndexError end
  | _ => Err TypeError
  end.
(** smarts.py:143-144 and others, [if kwargs[k] == z: append(...)]. *)
Definition when (o : sdict) (k : string) (z : Z) (l : list string) : res (list string) :=
  let! b := equals o k z in Ok (if b then l else []).

(** smarts.py:128-134 *)
Definition seg2 (o : sdict) : res (list string) :=
  let! a := pick o "ISPR" ["{SPR} !Card 2a"; "{SPR} {ALTIT} {HEIGHT} !Card 2a";
                           "{LATIT} {ALTIT} {HEIGHT} !Card 2a"] in
  Ok ["'{COMNT}' !Card 1"; "{ISPR} !Card 2"; a].
(** smarts.py:136-140 *)
Definition seg3 (o : sdict) : res (list string) :=
  let! a := pick o "IATMOS" ["{TAIR} {RH} '{SEASON}' {TDAY} !Card 3a"; "'{ATMOS}' !Card 3a"] in
  Ok ["{IATMOS} !Card 3"; a].
(** smarts.py:142-144 *)
Definition seg4 (o : sdict) : res (list string) :=
  let! a := when o "IH2O" 0 ["{W} !Card 4a"] in Ok ("{IH2O} !Card 4" :: a).
(** smarts.py:146-148 *)
Definition seg5 (o : sdict) : res (list string) :=
  let! a := when o "IO3" 0 ["{IALT} {AbO3} !Card 5a"] in Ok ("{IO3} !Card 5" :: a).
(** smarts.py:150-156 *)
Definition seg6 (o : sdict) : res (list string) :=
  let! b := equals o "IGAS" 0 in
  let! a := (if b
             then let! a := when o "ILOAD" 0
               ["{ApCH2O} {ApCH4} {ApCO} {ApHNO2} {ApHNO3} {ApNO} {ApNO2} {ApNO3} {ApO3} {ApSO2} !Card 6b"] in
               Ok ("{ILOAD} !Card 6a" :: a)
             else Ok []) in
  Ok ("{IGAS} !Card 6" :: a).
(** smarts.py:158-163 *)
Definition seg8 (o : sdict) : res (list string) :=
  let! v := item o "AEROS" in
  Ok (["{qCO2} !Card 7"; "{ISPCTR} !Card 7a"; "'{AEROS}' !Card 8"]
      ++ (if String.eqb (v_txt v) "USER" then ["{ALPHA1} {ALPHA2} {OMEGL} {GG} !Card 8a"] else [])).
(** smarts.py:165-173 *)
Definition seg9 (o : sdict) : res (list string) :=
  let! a := pick o "ITURB" ["{TAU5} !Card 9a"; "{BETA} !Card 9a"; "{BCHUEP} !Card 9a";
                            "{RANGE} !Card 9a"; "{VISI} !Card 9a"; "{TAU550} !Card 9a"] in
  Ok ["{ITURB} !Card 9"; a].
(** smarts.py:175-177 *)
Definition seg10 (o : sdict) : res (list string) :=
  let! a := when o "IALBDX" (-1) ["{RHOX} !Card 10a"] in Ok ("{IALBDX} !Card 10" :: a).
(** smarts.py:178-182 *)
Definition seg10b (o : sdict) : res (list string) :=
  let! b := equals o "ITILT" 1 in
  let! a := (if b
             then let! a := when o "IALBDG" 1 ["{RHOG} !Card 10d"] in
                  Ok ("{IALBDG} {TILT} {WAZIM} !Card 10c" :: a)
             else Ok []) in
  Ok ("{ITILT} !Card 10b" :: a).
(** smarts.py:184-191 *)
Definition seg12 (o : sdict) : res (list string) :=
  let! b := at_least o "IPRT" 1 in
  let! two := equals o "IPRT" 2 in
  let! three := equals o "IPRT" 3 in
  Ok (["{WLMN} {WLMX} {SUNCOR} {SOLARC} !Card 11"; "{IPRT} !Card 12"]
      ++ (if b then "{WPMN} {WPMX} {INTVL} !Card 12a"
                    :: (if two || three then ["{IOTOT} !Card 12b"; "{IOUT} !Card 12c"] else [])
          else [])).
(** smarts.py:193-195 *)
Definition seg13 (o : sdict) : res (list string) :=
  let! a := when o "ICIRC" 1 ["{SLOPE} {APERT} {LIMIT} !Card 13a"] in Ok ("{ICIRC} !Card 13" :: a).
(** smarts.py:197-199 *)
Definition seg14 (o : sdict) : res (list string) :=
  let! a := when o "ISCAN" 1 ["{IFILT} {WV1} {WV2} {STEP} {FWHM} !Card 14a"] in
  Ok ("{ISCAN} !Card 14" :: a).
(** smarts.py:201-212 *)
Definition seg17 (o : sdict) : res (list string) :=
  let! a := pick o "IMASS" ["{ZENIT} {AZIM} !Card 17a"; "{ELEV} {AZIM} !Card 17a"; "{AMASS} !Card 17a";
                            "{YEAR} {MONTH} {DAY} {HOUR} {LATIT} {LONGIT} {ZONE} !Card 17a";
                            "{MONTH} {LATIT} {DSTEP} !Card 17a"] in
  Ok ["{ILLUM} !Card 15"; "{IUV} !Card 16"; "{IMASS} !Card 17"; a].
(** smarts.py:128-212: the blocks one after the other. *)
Fixpoint appended (o : sdict) (l : list (sdict -> res (list string))) : res (list string) :=
  match l with
  | [] => Ok []
  | f :: r => let! a := f o in let! b := appended o r in Ok (a ++ b)
  end.
(** With [appended], smarts.py:128-212. *)
Definition contents (o : sdict) : res (list string) :=
  appended o [seg2; seg3; seg4; seg5; seg6; seg8; seg9; seg10; seg10b; seg12; seg13; seg14; seg17].
(** smarts.py:214 the line break. *)
Definition newline : string := String (ascii_of_nat 10) "".
(** smarts.py:217 [schema.format( **kwargs)], character by character; [field] is the name being
    read. (Simplification: no doubled braces, conversions or format specifications, of which the
    schema has none.) *)
Fixpoint format (o : sdict) (s : string) (field : option string) : res string :=
  match s, field with
  | "", None => Ok ""
  | "", Some _ => Err ValueError
  | String a r, None =>
      if Ascii.eqb a "{" then format o r (Some "")
      else let! x := format o r None in Ok (String a x)
  | String a r, Some n =>
      if Ascii.eqb a "}"
      then let! v := item o n in let! x := format o r None in Ok (v_txt v ++ x)%string
      else format o r (Some (n ++ String a "")%string)
  end.
(** smarts.py:126-223. The KeyError is printed and raised again (218-221). *)
Definition build_smarts_file (o : sdict) : res string :=
  let! l := contents o in
  let! s := format o (String.concat newline l) None in
  Ok (s ++ newline)%string.

(** smarts.py:298-355: integers, decimals and texts as they are written. *)
Definition vi (z : Z) (s : string) : sval := Val s (Int z).
(** With [vi], smarts.py:298-355. *)
Definition vf (q : Q) (s : string) : sval := Val s (Flt q).
(** With [vi], smarts.py:298-355. *)
Definition vt (s : string) : sval := Val s Txt.
(** smarts.py:226-357 [get_default_smarts_object]; HOUR (354) is 12 + (30 + 0/60)/60. *)
Definition default_smarts : sdict :=
  [("LATIT", vf (404966#10000) "40.4966"); ("LONGIT", vf (-3462#1000) "-3.462"); ("ISPR", vi 1 "1");
   ("ALTIT", vf (625#1000) "0.625"); ("HEIGHT", vf 0 "0.0"); ("ZONE", vi 0 "0"); ("SEASON", vt "SUMMER");
   ("IALBDX", vi 9 "9"); ("IALBDG", vi 9 "9"); ("IMASS", vi 3 "3"); ("IATMOS", vi 1 "1");
   ("ATMOS", vt "USSA"); ("IH2O", vi 0 "0"); ("IO3", vi 1 "1"); ("IGAS", vi 0 "0"); ("ILOAD", vi 2 "2");
   ("qCO2", vi 370 "370"); ("ISPCTR", vi 0 "0"); ("AEROS", vt "S&F_RURAL"); ("ITURB", vi 0 "0");
   ("TAU5", vf (85#1000) "0.085"); ("IPRT", vi 2 "2"); ("IOTOT", vi 1 "1"); ("IOUT", vt "4");
   ("WLMN", vi 280 "280"); ("WPMN", vi 280 "280"); ("WLMX", vi 4004 "4004"); ("WPMX", vi 4004 "4004");
   ("INTVL", vf (1#2) "0.5"); ("ISCAN", vi 1 "1"); ("IFILT", vi 1 "1"); ("WV1", vi 300 "300");
   ("WV2", vi 3990 "3990"); ("FWHM", vi 4 "4"); ("STEP", vi 2 "2"); ("ITILT", vi 1 "1");
   ("TILT", vi (-999) "-999"); ("WAZIM", vi (-999) "-999"); ("SOLARC", vi 1367 "1367");
   ("SUNCOR", vi 1 "1"); ("ICIRC", vi 1 "1"); ("SLOPE", vi 1 "1"); ("APERT", vf (5#2) "2.5");
   ("LIMIT", vi 4 "4"); ("ILLUM", vi 0 "0"); ("IUV", vi 0 "0"); ("COMNT", vt "Test"); ("SPR", vi 940 "940");
   ("TAIR", vi 17 "17"); ("TDAY", vi 25 "25"); ("RH", vi 30 "30"); ("W", vi 1 "1"); ("YEAR", vi 2015 "2015");
   ("MONTH", vi 5 "5"); ("DAY", vi 19 "19"); ("HOUR", vf (25#2) "12.5")].

(** * smarts.py:38-44 [skipper]: the lines with three spaces in a row, but for the first two *)
(** For [calculate], smarts.py:47-123, lines 120-121. *)
Fixpoint has_gap (s : string) : bool :=
  match s with
  | "" => false
  | String _ r => String.prefix "   " s || has_gap r
  end.
(** For [calculate], smarts.py:47-123, lines 120-121. *)
Definition skipper (lines : list string) : list string := skipn 2 (filter has_gap lines).

(** * smarts.py:47-123 and light_source.py:333-383 *)
(** smarts.py:82-98: what the program makes of an input file: the lines of the .scn file if there
    is one, or a failure (the program cannot be started, or complains). *)
Inductive ran : Type := Ran : option (list string) -> ran | Complained : ran.
(** The outcome of [calculate_spectrum_smarts]: the columns, or a SmartsSolverError (smarts.py:56),
    or another exception. *)
Inductive data : Type := Data : list (list R) -> data | NotFound : data | Fails : exn -> data.
(** The outcome of [_get_smarts_spectrum]: the function, [x_internal] and [power_density]; a
    message and None (light_source.py:376-383); an exception. *)
Inductive built : Type :=
| SBuilt : (R -> R) -> list R -> R -> built
| SPrinted : built
| SNotFound : built
| SRaised : exn -> built.
(** light_source.py:339-345 *)
Definition outputs : list (string * nat) :=
  [("Extraterrestial", 2%nat); ("True direct", 2%nat); ("Experimental direct", 3%nat);
   ("Global horizontal", 4%nat); ("Global tilted", 5%nat)].
(** light_source.py:347-356: the options, which the light source keeps. *)
Definition smarts_options (options : sdict) : sdict :=
  let o := merged default_smarts options in
  match get o "output" with Some _ => o | None => put o "output" (vt "Global horizontal") end.

Section Program.
Context (installed : bool) (run : string -> ran) (load : list string -> res (list (list R))).
(** smarts.py:47-123 with options and no target directory. [run] is the program on the input file
    (79-93), [load] is [np.loadtxt(..., unpack=True)] (97), by columns. Exceptions of either are
    printed (110-118) and leave no data, so that lines 120-121 raise. *)
Definition calculate (o : sdict) : data :=
  if installed then
    match build_smarts_file o with
    | Err e => Fails e
    | Ok f =>
        match run f with
        | Ran (Some lines) =>
            match load (skipper lines) with
            | Ok (d0 :: d) => Data (d0 :: d)
            | _ => Fails ValueError
            end
        | _ => Fails ValueError
        end
    end
  else NotFound.
(** light_source.py:358-383, given the options of line 356. *)
Definition smarts_spectrum (con : R) (o : sdict) : built :=
  match get o "output" with
  | None => SPrinted
  | Some v =>
      match get outputs (v_txt v) with
      | None => SPrinted
      | Some i =>
          match calculate o with
          | NotFound => SNotFound
          | Fails KeyError | Fails RuntimeError => SPrinted
          | Fails e => SRaised e
          | Data d =>
              match nth_error d 0, nth_error d i with
              | Some wl, Some y => SBuilt (scipy_interp wl y 0%R 0%R) wl (np_trapz y wl * con)%R
              | _, _ => SRaised IndexError
              end
          end
      end
  end.
(** light_source.py:92-96, 171-172: a new light source; its spectrum and its options. *)
Definition smarts_source (con : R) (kw : sdict) : built * sdict :=
  let o := smarts_options kw in (smarts_spectrum con o, o).
(** light_source.py:126-128, 131-145: [spectrum( **kw)] on a light source with options [o]. *)
Definition smarts_update (con : R) (o kw : sdict) : built * sdict :=
  let o' := smarts_options (override o kw) in (smarts_spectrum con o', o').
End Program.

(** light_source.py:308-331 [_get_spectral2_spectrum]: the source and its options. [calc] is
    [calculate_spectrum_spectral2] (Spectral2Model.v), wavelengths and irradiance. *)
Definition spectral2_source {A : Type} (default : list (string * A))
    (calc : list (string * A) -> list R * list R) (con : R) (kw : list (string * A))
    : built * list (string * A) :=
  let o := merged default kw in
  let wl := fst (calc o) in
  let y := snd (calc o) in
  (SBuilt (scipy_interp wl y 0%R 0%R) wl (np_trapz y wl * con)%R, o).
