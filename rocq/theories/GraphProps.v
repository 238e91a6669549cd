(** Property C193 about graphs. *)
From Coq Require Import Reals ZArith Ascii String List Bool Arith FinFun Lra Lia.
From Verif Require Import Common GraphModel.
From Coq Require Import List.
Import ListNotations.
Open Scope R_scope.
Open Scope list_scope.

(** * Square axes *)
(** The axis becomes a square with the shorter side, inside of the old position and around the
    same centre. *)
Theorem C193_square : forall fw fh b b', 0 < fw -> 0 < fh -> x0 b <= x1 b -> y0 b <= y1 b -> make_square fw fh b = b' ->
  let side := Rmin (fw * (x1 b - x0 b)) (fh * (y1 b - y0 b)) in
  fw * (x1 b' - x0 b') = side /\ fh * (y1 b' - y0 b') = side /\
  x0 b' + x1 b' = x0 b + x1 b /\ y0 b' + y1 b' = y0 b + y1 b /\
  x0 b <= x0 b' /\ x1 b' <= x1 b /\ y0 b <= y0 b' /\ y1 b' <= y1 b.
Proof.
  intros fw fh b b' Hw Hh Hx Hy <-. cbv zeta. unfold make_square, Rmin.
  set (aw := fw * (x1 b - x0 b)). set (ah := fh * (y1 b - y0 b)). cbv zeta.
  destruct (Rlt_dec ah aw) as [H|H]; [|destruct (Rlt_dec aw ah) as [H2|H2]]; destruct (Rle_dec aw ah) as [H3|H3]; try lra; cbn [x0 x1 y0 y1].
  - assert (0 < (aw - ah) / fw) by (apply Rdiv_lt_0_compat; lra). repeat split; try (unfold aw, ah; field; lra); lra.
  - assert (0 < (ah - aw) / fh) by (apply Rdiv_lt_0_compat; lra). repeat split; try (unfold aw, ah; field; lra); lra.
  - assert (aw = ah) by lra. unfold aw, ah in *. repeat split; lra.
Qed.
Example C193_square_ex : make_square 4 2 (Box 0 0 1 1) = Box (0 + (4 * (1 - 0) - 2 * (1 - 0)) / 4 / 2) 0 (1 - (4 * (1 - 0) - 2 * (1 - 0)) / 4 / 2) 1.
Proof. unfold make_square. cbn [x0 x1 y0 y1]. cbv zeta. destruct (Rlt_dec _ _); [reflexivity|lra]. Qed.

(** * Data *)
(** An element inside of nested iterables. *)
Inductive inside {A} (a : A) : item A -> Prop :=
| Here : inside a (Leaf a)
| Deeper t l : In t l -> inside a t -> inside a (Many l).
Lemma flat_many {A} (l : list (item A)) : flat (Many l) = flat_map flat l.
Proof. induction l as [|t l IH]; [reflexivity|]. cbn [flat flat_map] in *. now f_equal. Qed.
Lemma inside_flat {A} (a : A) t : inside a t -> In a (flat t).
Proof. induction 1 as [|t l H _ IH]; [now left|]. rewrite flat_many. apply in_flat_map. now exists t. Qed.
Lemma flat_inside {A} (a : A) : forall t, In a (flat t) -> inside a t.
Proof.
  fix F 1. intros [b|l] H; [destruct H as [H|[]]; rewrite H; constructor|].
  assert (G : forall l, In a (flat (Many l)) -> exists t, In t l /\ inside a t).
  { clear l H. intros l. induction l as [|t l IH]; intros H; [destruct H|]. cbn [flat] in H. apply in_app_or in H. destruct H as [H|H].
    - exists t. split; [now left|]. apply F. exact H.
    - destruct (IH H) as (u & Hu & Iu). exists u. split; [now right|exact Iu]. }
  destruct (G l H) as (t & Ht & It). now apply (Deeper a t).
Qed.
(** The data of a graph are the elements of everything given, however nested and in order: lists
    of data and single data can be mixed. *)
Theorem C193_flatten : forall A (l m : list (item A)), exists r, flatten true l = Ok r /\
  (forall a, In a r <-> exists t, In t l /\ inside a t) /\
  (exists s, flatten true m = Ok s /\ flatten true (l ++ m) = Ok (r ++ s) /\ flatten true (l ++ [Many m]) = Ok (r ++ s)) /\
  flatten true (map Leaf r) = Ok r.
Proof.
  intros A l m.
  assert (E : forall l : list (item A), flatten true l = Ok (flat_map flat l)) by (intros [|t k]; [reflexivity|]; unfold flatten; now rewrite flat_many).
  exists (flat_map flat l). split; [apply E|]. split; [|split].
  - intros a. rewrite in_flat_map. split; intros (t & H1 & H2); exists t; (split; [exact H1|]); [now apply flat_inside|now apply inside_flat].
  - exists (flat_map flat m). split; [apply E|]. rewrite !E, !flat_map_app. split; [reflexivity|]. cbn [flat_map]. now rewrite flat_many, app_nil_r.
  - rewrite E. f_equal. clear E. induction (flat_map flat l) as [|a r IH]; [reflexivity|]. cbn. now rewrite IH.
Qed.
Example C193_flatten_ex : flatten true [Leaf 1%nat; Many [Many []; Leaf 2%nat; Many [Leaf 3%nat]]] = Ok [1; 2; 3]%nat.
Proof. reflexivity. Qed.
(** With Python 3.10 or later no graph with data can be made. *)
Theorem C193_version_refuted : forall A (l : list (item A)), l <> [] -> flatten false l = Err AttributeError.
Proof. intros A [|t l] H; [easy|reflexivity]. Qed.

(** * Colours of the data *)
Lemma assign_length n : forall ds i, length (assign_colours n i ds) = length ds.
Proof. induction ds as [|d ds IH]; intros i; [reflexivity|]. cbn. now rewrite IH. Qed.
Lemma assign_nth n d0 : forall ds i j, (j < length ds)%nat -> nth j (assign_colours n i ds) d0 =
  let d := nth j ds d0 in if plain d then Datum (Some (to_rgba n (match d_index d with Some k => IZR k | None => INR (i + j) end))) (d_other d) (d_index d) else d.
Proof.
  induction ds as [|d ds IH]; intros i j Hj; [cbn in Hj; lia|]. destruct j as [|j]; [cbn; now rewrite Nat.add_0_r|].
  cbn [assign_colours nth]. rewrite IH by (cbn in Hj; lia). now rewrite Nat.add_succ_comm.
Qed.
Lemma assign_coloured n : forall ds i, (forall d, In d ds -> plain d = false) -> assign_colours n i ds = ds.
Proof. induction ds as [|d ds IH]; intros i H; [reflexivity|]. cbn. rewrite (H d (or_introl eq_refl)), IH; [reflexivity|]. intros e He. apply H. now right. Qed.
(** Colours given are kept, and drawing again changes nothing. *)
Theorem C193_colours_kept : forall ds, length (render ds) = length ds /\ render (render ds) = render ds /\
  forall j d0, (j < length ds)%nat -> plain (nth j ds d0) = false -> nth j (render ds) d0 = nth j ds d0.
Proof.
  intros ds. split; [apply assign_length|]. split.
  - unfold render at 1. apply assign_coloured. intros d Hd. unfold render in Hd. apply (In_nth _ _ d) in Hd. destruct Hd as (j & Hj & <-).
    rewrite assign_length in Hj. rewrite assign_nth by exact Hj. cbv zeta. destruct (plain (nth j ds d)) eqn:P; [reflexivity|exact P].
  - intros j d0 Hj P. unfold render. rewrite assign_nth by exact Hj. cbv zeta. now rewrite P.
Qed.
Lemma indexes_plain : forall ds i, (forall d, In d ds -> plain d = true /\ d_index d = None) ->
  color_indexes i ds = map (fun k => (- Z.of_nat k - 1)%Z) (seq i (length ds)).
Proof.
  induction ds as [|d ds IH]; intros i H; [reflexivity|]. cbn [color_indexes length seq map]. destruct (H d (or_introl eq_refl)) as [-> ->].
  f_equal. apply IH. intros e He. apply H. now right.
Qed.
(** Data without colours and indexes get different colours, at equal distances in the map. *)
Theorem C193_colours_differ : forall ds, (forall d, In d ds -> plain d = true /\ d_index d = None) ->
  forall j d0, (j < length ds)%nat -> d_color (nth j (render ds) d0) = Some (Mapped (INR j / INR (length ds))) /\
  forall k, (k < length ds)%nat -> j <> k -> d_color (nth j (render ds) d0) <> d_color (nth k (render ds) d0).
Proof.
  intros ds H.
  assert (N : length (nodup Z.eq_dec (color_indexes 0 ds)) = length ds).
  { rewrite indexes_plain by exact H. rewrite nodup_fixed_point; [now rewrite map_length, seq_length|].
    apply Injective_map_NoDup; [intros a b E; lia|apply seq_NoDup]. }
  assert (C : forall j d0, (j < length ds)%nat -> d_color (nth j (render ds) d0) = Some (Mapped (INR j / INR (length ds)))).
  { intros j d0 Hj. unfold render. rewrite N, assign_nth by exact Hj. cbv zeta. destruct (H (nth j ds d0) (nth_In ds d0 Hj)) as [-> ->].
    cbn [d_color Nat.add]. unfold to_rgba. do 2 f_equal. assert (0 <= INR j < INR (length ds)) by (split; [apply pos_INR|now apply lt_INR]).
    assert (0 <= INR j / INR (length ds) <= 1).
    { split; [apply Rmult_le_pos; [lra|apply Rlt_le, Rinv_0_lt_compat; lra]|]. apply (Rmult_le_reg_r (INR (length ds))); [lra|]. unfold Rdiv. rewrite Rmult_assoc, Rinv_l by lra. lra. }
    rewrite Rmin_right by lra. now rewrite Rmax_right by lra. }
  intros j d0 Hj. split; [now apply C|]. intros k Hk Njk. rewrite (C j d0 Hj), (C k d0 Hk). intros E. injection E as E.
  apply Njk. apply INR_eq. assert (0 < INR (length ds)) by (apply (lt_INR 0); lia).
  apply (f_equal (fun x => x * INR (length ds))) in E. unfold Rdiv in E. rewrite !Rmult_assoc, Rinv_l in E by lra. lra.
Qed.
(** Behind data with colours of their own, others get the same colour: their places count all
    data, but the map is scaled to those without colour. *)
Theorem C193_colours_refuted : exists ds d0, (forall d, In d ds -> d_index d = None) /\ length ds = 4%nat /\
  plain (nth 2 ds d0) = true /\ plain (nth 3 ds d0) = true /\ d_color (nth 2 (render ds) d0) = d_color (nth 3 (render ds) d0).
Proof.
  exists [Datum (Some (Given 0)) false None; Datum (Some (Given 1)) false None; Datum None false None; Datum None false None], (Datum None false None).
  split; [intros d [<-|[<-|[<-|[<-|[]]]]]; reflexivity|]. split; [reflexivity|]. split; [reflexivity|]. split; [reflexivity|].
  cbn -[INR]. unfold to_rgba. do 2 f_equal. cbn [INR]. rewrite !Rmin_left by lra. reflexivity.
Qed.

(** * Legend *)
Definition label_of (d : labelled) : option string := match d with Line l => l | Entry l => Some l end.
Fixpoint somes {A} (l : list (option A)) : list A := match l with [] => [] | Some a :: r => a :: somes r | None :: r => somes r end.
Lemma legend_all ds : forall pre, (forall d, In d ds -> label_of d <> None) ->
  fold_left (fun l e => insert_at l (fst e) (snd e)) (additions (length pre) ds) (pre ++ line_labels ds) = pre ++ somes (map label_of ds).
Proof.
  induction ds as [|d ds IH]; intros pre H; [reflexivity|]. assert (H' : forall e, In e ds -> label_of e <> None) by (intros e He; apply H; now right).
  assert (L : forall a : string, length (pre ++ [a]) = S (length pre)) by (intros a; rewrite app_length; cbn; lia).
  destruct d as [[l|]|l].
  - cbn [line_labels additions map label_of somes]. specialize (IH (pre ++ [l]) H'). rewrite L, <- !app_assoc in IH. exact IH.
  - exfalso. now apply (H (Line None)); [left|].
  - cbn [line_labels additions map label_of somes fold_left fst snd]. unfold insert_at at 2.
    rewrite firstn_app, firstn_all, Nat.sub_diag, firstn_O, app_nil_r, skipn_app, skipn_all, Nat.sub_diag, skipn_O. cbn [app].
    specialize (IH (pre ++ [l]) H'). rewrite L, <- !app_assoc in IH. exact IH.
Qed.
(** If every element has a label the legend has them all, in the order of the data (but for the
    label None, which hides an element). *)
Theorem C193_legend : forall ds, (forall d, In d ds -> label_of d <> None) ->
  legend ds = filter (fun l => negb (String.eqb l "None")) (somes (map label_of ds)).
Proof. intros ds H. unfold legend. f_equal. exact (legend_all ds [] H). Qed.
Example C193_legend_ex : legend [Line (Some "a"); Entry "b"; Line (Some "None"); Entry "c"]%string = ["a"; "b"; "c"]%string.
Proof. reflexivity. Qed.
(** Lines without label move the entries behind lines that come after them. *)
Theorem C193_legend_refuted : exists ds, somes (map label_of ds) = ["b"; "c"]%string /\ legend ds = ["c"; "b"]%string.
Proof. exists [Line None; Entry "b"; Line (Some "c")]%string. split; reflexivity. Qed.

(** * Table of colours *)
(** The digit of a value, and the text of a colour. *)
Definition digit (n : nat) : ascii := match String.get n "0123456789ABCDEF" with Some a => a | None => "0"%char end.
Definition byte (n : nat) (r : string) : string := String (digit (n / 16)) (String (digit (n mod 16)) r).
Definition hex_text (r g b : nat) : string := String "#" (byte r (byte g (byte b ""))).
Lemma index_digit n : (n < 16)%nat -> index_in (digit n) hex_digits 0 = Ok n.
Proof. intros H. do 16 (destruct n as [|n]; [reflexivity|]). lia. Qed.
Lemma channel_bytes s i n : (n < 256)%nat -> String.get i s = Some (digit (n / 16)) -> String.get (S i) s = Some (digit (n mod 16)) ->
  channel s i = Ok (INR n / 255).
Proof.
  intros H E1 E2. unfold channel, hex_at. rewrite E1, E2. rewrite index_digit by (apply Nat.div_lt_upper_bound; lia). cbn [bindR].
  rewrite index_digit by (apply Nat.mod_upper_bound; lia). cbn [bindR]. do 3 f_equal. rewrite (Nat.div_mod n 16) at 3 by lia. lia.
Qed.
(** A colour of the table is found whatever the case of the letters, as text or as parts of red,
    green and blue from zero to one. *)
Theorem C193_colour : forall before after name colour ty r g b e, (r < 256)%nat -> (g < 256)%nat -> (b < 256)%nat ->
  map_text lower_char colour = name -> (forall l, In l before -> hd ""%string (t_parts l) <> name /\ t_end l = false) ->
  let t := before ++ TLine [name; hex_text r g b] e :: after in
  (map_text upper_char ty = "HEX"%string -> colours t colour ty = Ok (Hex (hex_text r g b))) /\
  (map_text upper_char ty = "RGB"%string -> colours t colour ty = Ok (Rgb (INR r / 255) (INR g / 255) (INR b / 255)) /\
     0 <= INR r / 255 <= 1 /\ 0 <= INR g / 255 <= 1 /\ 0 <= INR b / 255 <= 1) /\
  (map_text upper_char ty <> "HEX"%string -> map_text upper_char ty <> "RGB"%string -> colours t colour ty = Err ValueError).
Proof.
  intros before after name colour ty r g b e Hr Hg Hb Hn Hbf t.
  assert (F : find_colour name t = Ok (Some (hex_text r g b, (INR r / 255, INR g / 255, INR b / 255)))).
  { unfold t. clear Hn. induction before as [|l before IH]; cbn [app find_colour].
    - cbn [t_parts hd]. rewrite String.eqb_refl. unfold entry. cbn [nth_error].
      rewrite (channel_bytes (hex_text r g b) 1 r Hr eq_refl eq_refl), (channel_bytes (hex_text r g b) 3 g Hg eq_refl eq_refl), (channel_bytes (hex_text r g b) 5 b Hb eq_refl eq_refl). reflexivity.
    - destruct (Hbf l (or_introl eq_refl)) as [N ->]. destruct (String.eqb_spec name (hd ""%string (t_parts l))); [congruence|]. apply IH. intros k Hk. apply Hbf. now right. }
  assert (P : forall n, (n < 256)%nat -> 0 <= INR n / 255 <= 1).
  { intros n H. assert (0 <= INR n <= 255) by (split; [apply pos_INR|]; replace 255 with (INR 255) by (cbn; ring); apply le_INR; lia). lra. }
  unfold colours. rewrite Hn, F. cbn [bindR]. cbv zeta. split; [|split].
  - intros ->. reflexivity.
  - intros ->. cbn [String.eqb Ascii.eqb Bool.eqb]. repeat split; try reflexivity; now apply P.
  - intros N1 N2. apply String.eqb_neq in N1, N2. now rewrite N1, N2.
Qed.
Example C193_colour_ex : map_text lower_char "Dark Red" = "dark red"%string /\ hex_text 139 0 0 = "#8B0000"%string /\ map_text upper_char "rgb" = "RGB"%string.
Proof. repeat split. Qed.
(** Names not in the table raise. *)
Theorem C193_unknown : forall t colour ty, (forall l, In l t -> hd ""%string (t_parts l) <> map_text lower_char colour) ->
  exists x, colours t colour ty = Err x /\ ((exists l, In l t /\ t_end l = true) -> x = ValueError).
Proof.
  intros t colour ty H.
  assert (F : find_colour (map_text lower_char colour) t = (if existsb t_end t then Err ValueError else Ok None)).
  { induction t as [|l t IH]; [reflexivity|]. cbn [find_colour existsb]. destruct (String.eqb_spec (map_text lower_char colour) (hd ""%string (t_parts l))) as [E|_]; [exfalso; apply (H l); [now left|congruence]|].
    destruct (t_end l); [reflexivity|]. apply IH. intros k Hk. apply H. now right. }
  unfold colours. rewrite F. destruct (existsb t_end t) eqn:E; cbn [bindR].
  - exists ValueError. split; [reflexivity|easy].
  - cbv zeta. assert (N : ~ exists l, In l t /\ t_end l = true) by (intros X; apply existsb_exists in X; congruence).
    destruct (String.eqb _ "HEX"); [exists KeyError; split; [reflexivity|contradiction]|]. destruct (String.eqb _ "RGB"); [exists KeyError; split; [reflexivity|contradiction]|].
    exists ValueError. split; [reflexivity|easy].
Qed.
(** The empty name is found on the blank line of the file, which has no colour. *)
Theorem C193_blank_refuted : exists t, In (TLine ["maroon"; "#800000"]%string false) t /\ In (TLine ["$END$"]%string true) t /\ colours t "" "hex" = Err IndexError.
Proof.
  exists [TLine ["$ T. Wilson, October 2016"]%string false; TLine [""]%string false; TLine ["maroon"; "#800000"]%string false; TLine ["$END$"]%string true].
  split; [cbn; tauto|]. split; [cbn; tauto|reflexivity].
Qed.
