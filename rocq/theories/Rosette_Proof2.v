Require Import Reals Lra Lia ZArith String List Bool Sorted.
From Verif Require Import Base Vec3 Isometry_Model Isometry_Spec Isometry_Proof Sky_Model Sky_Spec Sky_Proof Cutsky_Model Cutsky_Spec Cutsky_Proof Box_Model Box_Spec Box_Proof Box_Proof2 Box_Proof3 Box_Proof4.
From Verif Require Import Remap_Model Rsd_Model Rsd_Spec Rsd_Proof Mask_Model Script_Model Script_Thm SV3_Model Rosette_Model Rosette_Spec Rosette_Proof.
Import ListNotations.
Open Scope R_scope.

(* ---------- the box as seen ---------- *)
Lemma frame_dots : forall ra dec angle, let l := outward ra dec in let e := turned_east ra dec angle in let n := turned_north ra dec angle in
  vdot l l = 1 /\ vdot e e = 1 /\ vdot n n = 1 /\ vdot l e = 0 /\ vdot l n = 0 /\ vdot e n = 0.
Proof.
  intros ra dec angle. cbv zeta. unfold turned_east, turned_north, outward, east, north, sky_point. cbv zeta. fold deg.
  pose proof (sc1 (ra * deg)) as K1. pose proof (sc1 (dec * deg)) as K2. pose proof (sc1 (angle * deg)) as K3.
  generalize dependent (sin (ra * deg)). generalize (cos (ra * deg)). generalize dependent (sin (dec * deg)). generalize (cos (dec * deg)).
  generalize dependent (sin (angle * deg)). generalize (cos (angle * deg)).
  intros ca sa K3 cd sd K2 cr sr K1. vunfold. repeat split; ring [K1 K2 K3].
Qed.
Lemma frame_whole : forall ra dec angle q, in_frame ra dec angle (V (vdot q (outward ra dec)) (vdot q (turned_east ra dec angle)) (vdot q (turned_north ra dec angle))) = q.
Proof.
  intros ra dec angle [x y z]. unfold in_frame, turned_east, turned_north, outward, east, north, sky_point. cbv zeta. fold deg.
  pose proof (sc1 (ra * deg)) as K1. pose proof (sc1 (dec * deg)) as K2. pose proof (sc1 (angle * deg)) as K3.
  generalize dependent (sin (ra * deg)). generalize (cos (ra * deg)). generalize dependent (sin (dec * deg)). generalize (cos (dec * deg)).
  generalize dependent (sin (angle * deg)). generalize (cos (angle * deg)).
  intros ca sa K3 cd sd K2 cr sr K1. vunfold. vsplit; ring [K1 K2 K3].
Qed.
Lemma frame_coords : forall ra dec angle v, vdot (in_frame ra dec angle v) (outward ra dec) = vx v /\ vdot (in_frame ra dec angle v) (turned_east ra dec angle) = vy v /\
  vdot (in_frame ra dec angle v) (turned_north ra dec angle) = vz v.
Proof.
  intros ra dec angle [x y z]. destruct (frame_dots ra dec angle) as (A & B & C & D & E & F). unfold in_frame. revert A B C D E F.
  generalize (outward ra dec) (turned_east ra dec angle) (turned_north ra dec angle). intros [a b c] [d e f] [g h i]. vunfold. intros A B C D E F.
  repeat split.
  - transitivity (x * (a * a + b * b + c * c) + y * (a * d + b * e + c * f) + z * (a * g + b * h + c * i)); [ring|]. rewrite A, D, E. ring.
  - transitivity (x * (a * d + b * e + c * f) + y * (d * d + e * e + f * f) + z * (d * g + e * h + f * i)); [ring|]. rewrite B, D, F. ring.
  - transitivity (x * (a * g + b * h + c * i) + y * (d * g + e * h + f * i) + z * (g * g + h * h + i * i)); [ring|]. rewrite C, E, F. ring.
Qed.
Lemma reach : forall ra dec angle dmax size center q, (exists p, contained size center p /\ seen ra dec angle dmax size center p = q) <->
  dmax - vx size <= vdot q (outward ra dec) <= dmax /\ Rabs (vdot q (turned_east ra dec angle)) <= vy size / 2 /\ Rabs (vdot q (turned_north ra dec angle)) <= vz size / 2.
Proof.
  intros ra dec angle dmax size center q. unfold contained, seen. split.
  - intros (p & (A & B & C) & <-). destruct (frame_coords ra dec angle (vadd (V (dmax - vx size / 2) 0 0) (vsub p center))) as (-> & -> & ->).
    cbn [vx vy vz vadd vsub]. apply Rabs_le_inv in A. rewrite !Rplus_0_l. lra.
  - intros (A & B & C). exists (vadd center (V (vdot q (outward ra dec) - (dmax - vx size / 2)) (vdot q (turned_east ra dec angle)) (vdot q (turned_north ra dec angle)))). split.
    + cbn [vx vy vz vadd]. split; [apply Rabs_le; lra|]. split; [replace (vy center + _ - vy center) with (vdot q (turned_east ra dec angle)) by ring|replace (vz center + _ - vz center) with (vdot q (turned_north ra dec angle)) by ring]; auto.
    + transitivity (in_frame ra dec angle (V (vdot q (outward ra dec)) (vdot q (turned_east ra dec angle)) (vdot q (turned_north ra dec angle)))); [|apply frame_whole].
      f_equal. destruct center as [a b c]. vsplit; cbn [vx vy vz vadd vsub]; ring.
Qed.
Lemma frame_norm : forall ra dec angle v, vdot (in_frame ra dec angle v) (in_frame ra dec angle v) = vdot v v.
Proof.
  intros ra dec angle v. destruct (frame_coords ra dec angle v) as (A & B & C). unfold in_frame at 2.
  transitivity (vx v * vdot (in_frame ra dec angle v) (outward ra dec) + vy v * vdot (in_frame ra dec angle v) (turned_east ra dec angle) + vz v * vdot (in_frame ra dec angle v) (turned_north ra dec angle)).
  - generalize (in_frame ra dec angle v) (outward ra dec) (turned_east ra dec angle) (turned_north ra dec angle). destruct v. vring || (intros; vunfold; ring).
  - rewrite A, B, C. destruct v. vunfold. ring.
Qed.

(* ---------- observation ---------- *)
Definition observed (factor : option R) (cat : pcat) (obs : list vec) : Prop :=
  match factor with
  | Some f => exists pos vel, position cat = Ok pos /\ velocity cat = Ok vel /\ List.length vel = List.length pos /\ (forall p, In p pos -> p <> vzero) /\ rsd_position cat (FNum f) None = Ok obs
  | None => column cat "Position" = Some (ColV obs)
  end.
Lemma sky_of : forall pos, (forall p, In p pos -> p <> vzero) -> exists sky, map_result (cartesian_to_sky true) pos = Ok sky /\ on_sky pos sky.
Proof.
  intros pos NZ. destruct (map_result_all (cartesian_to_sky true) (fun p x => cartesian_to_sky true p = Ok x) pos) as (sky & Es & Fs).
  { intros q I. destruct (c2s_ok true _ (NZ q I)) as (x & y & z & E). eauto. }
  exists sky. split; auto. unfold on_sky. revert Fs. clear. intros F. induction F as [|p [[d ra] dec] pos sky E F IH]; constructor; auto. cbn [fst snd]. apply c2s_sky_point. exact E.
Qed.
Lemma on_sky_length : forall pos sky, on_sky pos sky -> List.length sky = List.length pos.
Proof. intros pos sky H. induction H; cbn; auto. Qed.

Lemma observe_ok : forall factor d2z n cat obs, rows_ok n cat -> observed factor cat obs -> List.length obs = n -> (forall q, In q obs -> q <> vzero) ->
  exists cat' sky, observe factor d2z cat = Ok cat' /\ on_sky obs sky /\ rows_ok n cat' /\
    column cat' "RA" = Some (ColS (map (fun x => snd (fst x)) sky)) /\ column cat' "DEC" = Some (ColS (map snd sky)) /\ column cat' "Z" = Some (ColS (map (fun x => d2z (fst (fst x))) sky)) /\
    (forall f, factor = Some f -> column cat' "RSDPosition" = Some (ColV obs)) /\ (forall m, ~ In m added -> column cat' m = column cat m) /\
    (factor = None -> column cat' "RSDPosition" = column cat "RSDPosition").
Proof.
  intros factor d2z n cat obs W O L NZ. destruct (sky_of obs NZ) as (sky & Es & Os). pose proof (on_sky_length _ _ Os) as Ls. unfold observe.
  set (cat1 := match factor with Some _ => with_data cat (set_col "RSDPosition" (ColV obs) (pc_data cat)) | None => cat end).
  assert (E1 : match factor with
          | Some f => do rsd <- rsd_position cat (FNum f) None; Ok (rsd, with_data cat (set_col "RSDPosition" (ColV rsd) (pc_data cat)))
          | None => do pos <- get_vec "Position" (pc_data cat); Ok (pos, cat)
          end = Ok (obs, cat1)).
  { unfold observed in O. destruct factor as [f|]; [destruct O as (pos & vel & _ & _ & _ & _ & ->); reflexivity|]. unfold get_vec. unfold column in O. rewrite O. reflexivity. }
  rewrite E1. cbn [bind]. rewrite Es. cbn [bind]. eexists _, sky. split; [reflexivity|]. split; [exact Os|].
  assert (W1 : rows_ok n cat1).
  { unfold cat1. destruct factor; auto. intros m x I. cbn [with_data pc_data] in I. apply set_col_In in I. destruct I as [ [_ ->]|I]; [exact L|apply (W m x I)]. }
  assert (C1 : forall m, m <> "RSDPosition"%string -> column cat1 m = column cat m).
  { intros m Nm. unfold cat1, column. destruct factor; auto. cbn [with_data pc_data]. rewrite set_col_lookup. apply String.eqb_neq in Nm. rewrite Nm. reflexivity. }
  split.
  { intros m x I. cbn [with_data pc_data] in I. apply set_col_In in I. destruct I as [ [_ ->]|I]; [cbn; rewrite map_length; lia|]. apply set_col_In in I. destruct I as [ [_ ->]|I]; [cbn; rewrite map_length; lia|].
    apply set_col_In in I. destruct I as [ [_ ->]|I]; [cbn; rewrite map_length; lia|apply (W1 m x I)]. }
  unfold column. cbn [with_data pc_data]. rewrite !set_col_lookup. cbn [String.eqb Ascii.eqb Bool.eqb]. split; [reflexivity|]. split; [reflexivity|]. split; [reflexivity|]. split; [|split].
  - intros f Ef. unfold cat1. rewrite Ef. cbn [String.eqb Ascii.eqb Bool.eqb]. cbn [with_data pc_data]. rewrite set_col_lookup. reflexivity.
  - intros m H. cbn in H. rewrite !set_col_lookup. destruct (String.eqb_spec m "Z"); [subst; exfalso; tauto|]. destruct (String.eqb_spec m "DEC"); [subst; exfalso; tauto|].
    destruct (String.eqb_spec m "RA"); [subst; exfalso; tauto|]. apply C1. intros Em. subst m. tauto.
  - intros Ef. unfold cat1. rewrite Ef. reflexivity.
Qed.

(* ---------- selection ---------- *)
Lemma cut_ok : forall near in_desi tiles ids prob u n cat sky d2z, tile_lookup near in_desi -> rows_ok n cat -> List.length sky = n ->
  column cat "RA" = Some (ColS (map (fun x : R * R * R => snd (fst x)) sky)) -> column cat "DEC" = Some (ColS (map snd sky)) -> column cat "Z" = Some (ColS (map (fun x => d2z (fst (fst x))) sky)) ->
  exists cat' idx, cut_rosette in_desi tiles ids prob u cat = Ok cat' /\ rows_kept idx cat cat' /\ rows_ok (List.length idx) cat' /\
    forall i, In i idx <-> exists d ra dec, nth_error sky i = Some (d, ra, dec) /\ in_tile_of near tiles ids (ra, dec) /\ u i <= prob (d2z d).
Proof.
  intros near in_desi tiles ids prob u n cat sky d2z T W L Er Ed Ez. unfold cut_rosette, get_num. unfold column in Er, Ed, Ez. rewrite Er, Ed, Ez. cbn [bind]. rewrite T.
  set (kept := filter (fun t => existsb (Z.eqb (fst t)) ids) tiles).
  assert (Ec : combine (map (fun x : R * R * R => snd (fst x)) sky) (map snd sky) = map (fun x => (snd (fst x), snd x)) sky) by (clear; induction sky as [|x sky IH]; cbn; [auto|rewrite IH; auto]).
  rewrite Ec, !map_map, map_length.
  set (a := map (fun x : R * R * R => existsb (fun t => near t (snd (fst x), snd x)) kept) sky). set (b := mask_call _ _).
  assert (La : List.length a = n) by (unfold a; rewrite map_length; auto).
  assert (Lb : List.length b = n) by (unfold b, mask_call, numbers; rewrite map_length, combine_length, !map_length, seq_length; lia).
  destruct (mask_and_ok a b ltac:(congruence)) as [m Em]. rewrite Em. cbn [bind]. destruct (mask_and_spec _ _ _ Em) as (_ & Lm & Sm).
  assert (Lm' : List.length m = n) by congruence. destruct (kept_rows m cat n Lm' W) as (cat' & E & K). rewrite E. exists cat', (trues m). split; [reflexivity|]. split; [exact K|].
  assert (I : forall i, In i (trues m) <-> exists d ra dec, nth_error sky i = Some (d, ra, dec) /\ in_tile_of near tiles ids (ra, dec) /\ u i <= prob (d2z d)).
  { intros i. rewrite trues_In. destruct (nth_error sky i) as [ [[d ra] dec]|] eqn:Ei.
    - assert (Li : (i < n)%nat) by (rewrite <- L; apply nth_error_Some; congruence).
      assert (Ai : nth_error a i = Some (existsb (fun t => near t (ra, dec)) kept)) by (unfold a; rewrite nth_error_map, Ei; reflexivity).
      assert (Bi : nth_error b i = Some (Rleb (u i) (prob (d2z d)))).
      { unfold b, mask_call. rewrite nth_error_map. rewrite (combine_nth_error _ _ i (prob (d2z d)) (u i)); [reflexivity|rewrite nth_error_map, Ei; reflexivity|].
        unfold numbers. rewrite nth_error_map. rewrite nth_error_nth' with (d := 0%nat) by (rewrite seq_length; lia). cbn. rewrite seq_nth by lia. reflexivity. }
      assert (Tl : existsb (fun t => near t (ra, dec)) kept = true <-> in_tile_of near tiles ids (ra, dec)).
      { rewrite existsb_exists. unfold kept, in_tile_of. split.
        - intros (t & H & Nt). apply filter_In in H. destruct H as [H J]. apply existsb_exists in J. destruct J as (k & J & Ek). apply Z.eqb_eq in Ek. exists t. rewrite Ek. auto.
        - intros (t & H & J & Nt). exists t. split; auto. apply filter_In. split; auto. apply existsb_exists. exists (fst t). split; auto. apply Z.eqb_refl. }
      rewrite Sm, Ai, Bi. split.
      + intros [X Y]. injection X as X. injection Y as Y. apply Tl in X. apply Rleb_true in Y. eauto 8.
      + intros (d' & ra' & dec' & Q & X & Y). injection Q as <- <- <-. apply Tl in X. apply Rleb_true in Y. rewrite X, Y. auto.
    - split; [|intros (d & ra & dec & Q & _); discriminate]. intros H. exfalso. apply nth_error_None in Ei. assert (i < List.length m)%nat by (apply nth_error_Some; congruence). lia. }
  split; [|exact I]. destruct K as (_ & Nk & Ck). intros nm x J.
  unfold select_rows in E. destruct (map_cols _ _) as [d|] eqn:Ed'; [|discriminate]. cbn [bind] in E. injection E as <-. cbn [pc_data] in J. clear - Ed' J Lm' W.
  assert (W' : forall k y, In (k, y) (pc_data cat) -> col_rows y = List.length m) by (intros; rewrite Lm'; eapply W; eauto). clear W Lm'. revert d Ed' x J W'.
  generalize (pc_data cat). intros l. induction l as [|[k y] l IH]; intros d Ed x J W; cbn in Ed; [injection Ed as <-; destruct J|].
  destruct (select_col m y) as [y'|] eqn:Ey; [|discriminate]. cbn [bind] in Ed. destruct (map_cols _ l) as [d'|] eqn:El; [|discriminate]. cbn [bind] in Ed. injection Ed as <-.
  destruct J as [J|J]; [|apply (IH d' eq_refl x J (fun a b H => W a b (or_intror H)))]. injection J as -> ->. rewrite select_col_pick in Ey by (symmetry; apply (W nm y); left; auto). injection Ey as <-.
  specialize (W nm y (or_introl eq_refl)). assert (P : forall (B : Type) (l0 : list B), List.length l0 = List.length m -> List.length (pick (trues m) l0) = List.length (trues m)).
  { intros B l0 H. unfold pick. assert (Q : forall i, In i (trues m) -> exists z, nth_error l0 i = Some z).
    { intros i Hi. apply trues_In in Hi. assert (i < List.length l0)%nat by (rewrite H; apply nth_error_Some; congruence). destruct (nth_error l0 i) eqn:Z; [eauto|apply nth_error_None in Z; lia]. }
    revert Q. generalize (trues m). intros t. induction t as [|i t IH2]; intros Q; cbn; auto. destruct (Q i (or_introl eq_refl)) as [z Hz]. rewrite Hz. cbn. rewrite IH2; auto. intros j Hj. apply Q. right. auto. }
  destruct y; cbn in *; apply P; auto.
Qed.
