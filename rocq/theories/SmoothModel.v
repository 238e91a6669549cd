(** Model of [smooth], solcore/smooth.py:4-62, for one-dimensional arrays of reals. *)
From Coq Require Import Reals String List Bool ZArith.
From Verif Require Import Common InterpModel StructModel.
Import ListNotations.
Open Scope string_scope.
Open Scope R_scope.
Open Scope list_scope.

(** The window length: annotated [int] (smooth.py:4) but
    structure_utilities.py:236-249 passes a float. *)
Inductive wlen := WInt (z : Z) | WFloat (r : R).
(** With [wlen], smooth.py:4, structure_utilities.py:236-249. *)
Definition wval (w : wlen) : R := match w with WInt z => IZR z | WFloat r => r end.

(** The accepted window names, smooth.py:44. *)
Definition windows : list string := ["flat"; "hanning"; "hamming"; "bartlett"; "blackman"].

(** The padded signal of smooth.py:47:
    [2*x[0] - x[w-1::-1]], [x], [2*x[-1] - x[-1:-w:-1]], for 3 <= w <= len(x). *)
Definition padded (x : list R) (w : nat) : list R :=
  map (fun v => 2 * at_ x 0 - v) (rev (firstn w x)) ++ x ++
  map (fun v => 2 * at_ x (length x - 1) - v) (rev (skipn (length x - (w - 1)) x)).

(** [np.convolve(w / w.sum(), s, mode='same')[i]] for the flat window of length
    [w <= len(s)], smooth.py:51, 61: the window is centred at [i], that is it covers
    s[i + (w-1)//2 - k] for k < w; terms outside the signal are left out. *)
Definition conv_same (w : nat) (s : list R) (i : nat) : R :=
  sumR (map (fun k => if Nat.leb k (i + (w - 1) / 2) then / INR w * at_ s (i + (w - 1) / 2 - k) else 0)
            (seq 0 w)).

(** [smooth], smooth.py:4-62.  A float window length raises TypeError in the slice of
    line 47; a window other than flat raises NameError at line 53, where the module is
    called numpy although line 1 only binds np; blurmode right and left slice with a
    float (55-58). *)
Definition smooth (x : list R) (w : wlen) (window blurmode : string) : res (list R) :=
  if Rlt_dec (INR (length x)) (wval w) then Err ValueError
  else if Rlt_dec (wval w) 3 then Ok x
  else if negb (existsb (String.eqb window) windows) then Err ValueError
  else match w with
  | WFloat _ => Err TypeError
  | WInt z =>
      let n := Z.to_nat z in
      if negb (String.eqb window "flat") then Err NameError
      else if String.eqb blurmode "right" || String.eqb blurmode "left" then Err TypeError
      else
        let s := padded x n in
        Ok (map (fun i => conv_same n s (i + n)) (seq 0 (length s - (n - 1) - n)))
  end.
