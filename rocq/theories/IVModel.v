(** Model of [iv_multijunction], solcore/analytic_solar_cells/IV.py:9-128, without
    the radiative coupling (lines 76-88, 131-267), which iterates a root finder. *)
From Coq Require Import Reals List Arith Bool.
From Verif Require Import Common InterpModel NpModel.
Import ListNotations.
Open Scope R_scope.
Open Scope list_scope.

(** A solved junction: sampled currents and voltages ([solar_cell(j).current],
    [solar_cell(j).voltage]) (for [minimum_J], IV.py:47-50). *)
Record junction_iv := { j_current : list R; j_voltage : list R }.

(** [np.where(|a| < |b|, a, b)] element-wise, IV.py:48-50. *)
Definition abs_less (a b : R) : R := if Rlt_dec (Rabs a) (Rabs b) then a else b.
(** With [abs_less], IV.py:48-50. *)
Fixpoint where_less (l m : list R) : list R :=
  match l, m with
  | a :: l', b :: m' => abs_less a b :: where_less l' m'
  | _, _ => []
  end.

(** [Rs = max(solar_cell.R_series, 1e-14)], IV.py:39. *)
Definition series_R (r : R) : R := Rmax r (/ 10 ^ 14).

(** [minimum_J] before sorting, IV.py:47-50. *)
Definition minimum_J (js : list junction_iv) : list R :=
  match js with
  | [] => []
  | j0 :: js' => fold_left (fun m j => where_less m (j_current j)) js' (j_current j0)
  end.

(** For [iv_multijunction], IV.py:35-74, 116. *)
Definition sum (l : list R) : R := fold_right Rplus 0 l.

(** The voltage of one junction and of the whole cell at a current [J],
    IV.py:57, 60-69; [tunnels] are the [vi] functions of the tunnel junctions. *)
Definition junction_V (J : R) (j : junction_iv) : R := np_interp (j_current j) (j_voltage j) J.
(** With [junction_V], IV.py:57, 60-69. *)
Definition total_V (Rs : R) (tunnels : list (R -> R)) (js : list junction_iv) (J : R) : R :=
  Rs * J - sum (map (fun vi => vi (- J)) tunnels) + sum (map (junction_V J) js).

(** The result, IV.py:116-128. *)
Record iv_result := {
  iv_V : list R; iv_I : list R;
  iv_junctions : list (list R * list R);
  iv_Rseries : list R * list R
}.

(** The arrays have compatible shapes: otherwise numpy raises ValueError (arrays of
    length one would be broadcast; that case is counted as an error here) (for [iv_multijunction], IV.py:35-74, 116). *)
Definition shapes_ok (js : list junction_iv) : bool :=
  match js with
  | [] => true
  | j0 :: _ => forallb (fun j => Nat.eqb (length (j_current j)) (length (j_current j0))
                         && Nat.eqb (length (j_voltage j)) (length (j_current j))) js
               && Nat.ltb 0 (length (j_current j0))
  end.

(** [iv_multijunction], IV.py:35-74, 116-128. *)
Definition iv_multijunction (R_series : R) (tunnels : list (R -> R)) (js : list junction_iv)
    (output_V : list R) : res iv_result :=
  match js with
  | [] => Err IndexError
  | _ =>
      if shapes_ok js then
        let Rs := series_R R_series in
        let mJ := np_sort (minimum_J js) in
        let tV := map (total_V Rs tunnels js) mJ in
        let out_J := map (np_interp tV mJ) output_V in
        Ok {| iv_V := output_V;
              iv_I := map Ropp out_J;
              iv_junctions :=
                map (fun j => (map (np_interp tV (map (fun J => junction_V J j) mJ)) output_V, map Ropp out_J)) js;
              iv_Rseries := (map (fun J => J * Rs) out_J, map Ropp out_J) |}
      else Err ValueError
  end.

(** * Maximum power point *)

(** The parameters, IV.py:91-114; a division by zero gives inf or nan in numpy,
    None here. *)
Record mpp := { m_Isc : R; m_Voc : R; m_Pmpp : R; m_Vmpp : R; m_Impp : R; m_FF : option R; m_Eta : option R }.
(** With [mpp], IV.py:91-114. *)
Definition np_div (a b : R) : option R := if Req_EM_T b 0 then None else Some (a / b).
(** IV.py:100-111, with light_iv and mpp set; [power] is the power of the light
    source.  An exception is printed and all parameters stay None (line 113). *)
Definition mpp_parameters (V I : list R) (power : R) : option mpp :=
  match V, I with
  | [], _ | _, [] => None
  | _, _ =>
      let P := map (fun p => fst p * snd p) (combine V I) in
      match np_max P, np_argmax P with
      | Ok pm, Ok k =>
          let isc := np_interp V I 0 in
          let voc := np_interp (map Ropp I) V 0 in
          Some {| m_Isc := isc; m_Voc := voc; m_Pmpp := pm; m_Vmpp := at_ V k; m_Impp := at_ I k;
                  m_FF := np_div pm (isc * voc); m_Eta := np_div pm power |}
      | _, _ => None
      end
  end.
