(** Property C87: the blinding procedure of the documentation. Vocabulary in Blind_Spec.v and Proc_Spec.v. *)
Require Import Reals ZArith String List Bool Lra Lia.
From Verif Require Import Base Vec3 Isometry_Model Isometry_Spec Isometry_Proof Sky_Model Sky_Spec Sky_Proof Cutsky_Model Box_Model Rsd_Model Mock_Model Blind_Model Blind_Spec Blind_Thm Blind_Thm2 Blind_Thm4 Proc_Model Proc_Spec Proc_Proof.
Import ListNotations.
Open Scope R_scope.

(** All the ways to give the fiducial cosmology are equivalent, and get_cosmo gives the cosmology meant. *)
Theorem C87_cosmology : forall cp a c, means cp a c -> get_cosmo cp a = Ok (Some c) /\
  (forall clone u params z, get_cosmo_blind_of cp clone a u params z = get_cosmo_blind clone c u params z) /\
  forall clone rc d2z u params zb bias z t dtype data dw randoms rw,
    procedure cp clone rc d2z a u params zb bias z t dtype data dw randoms rw = procedure cp clone rc d2z (CInstance c) u params zb bias z t dtype data dw randoms rw.
Proof.
  intros cp a c M. apply get_cosmo_means in M. split; auto. unfold procedure, blinding_new, get_cosmo_blind_of. rewrite M. cbn [get_cosmo bind given]. split; intros; reflexivity.
Qed.
Print Assumptions C87_cosmology.
(** The cosmology meant is the only one that get_cosmo can give. *)
Theorem C87_cosmology_only : forall cp a c, get_cosmo cp a = Ok (Some c) -> means cp a c.
Proof. intros cp a c H. apply get_cosmo_means; auto. Qed.
Print Assumptions C87_cosmology_only.
(** No cosmology is given only for None: whatever else does not mean a cosmology raises, in particular unknown names. *)
Theorem C87_cosmology_none : forall cp (a : cosmo_arg), ((get_cosmo cp a = Ok None <-> a = CNone) /\
  ((forall c, ~ means cp a c) -> a <> CNone -> exists e, get_cosmo cp a = Err e) /\
  (forall name params, cp_fiducial cp name = None -> get_cosmo cp (CName name) = Err AttributeError /\ get_cosmo cp (CTuple name params) = Err AttributeError))%type.
Proof.
  assert (N : forall cp a, (get_cosmo cp a = Ok None <-> a = CNone)%type).
  { intros cp a. split; [|intros ->; reflexivity]. intros H. destruct a as [|c|name|name params|params]; auto; try discriminate; cbn in H.
    - destruct (cp_fiducial cp name) as [make|]; [|discriminate]. destruct (make []); discriminate.
    - destruct (cp_fiducial cp name) as [make|]; [|discriminate]. destruct (make params); discriminate.
    - destruct (cp_cosmology cp params); discriminate. }
  intros cp a. split; [apply N|]. split.
  - intros H NN. destruct (get_cosmo cp a) as [[c|]|e] eqn:E; [|apply N in E; contradiction|eauto]. exfalso. apply (H c). apply get_cosmo_means; auto.
  - intros name params H. cbn. rewrite H. auto.
Qed.
Print Assumptions C87_cosmology_none.
(** As it is written in the documentation, without a redshift for the blinded cosmology, the procedure raises for all catalogs and seeds: the growth rate needs one. *)
Theorem C87_documented_refuted : forall cp clone rc d2z a fid u bias z t dtype data dw randoms rw, means cp a fid -> plain fid ->
  exists e, procedure cp clone rc d2z a u None None bias z t dtype data dw randoms rw = Err e.
Proof.
  intros cp clone rc d2z a fid u bias z t dtype data dw randoms rw M P. apply get_cosmo_means in M. destruct (plain_needs_redshift clone fid u P) as [e E]. exists e. unfold procedure, get_cosmo_blind_of. rewrite M. cbn [bind given]. rewrite E. auto.
Qed.
Print Assumptions C87_documented_refuted.
(** Whatever the reconstructions and cosmologies: numbers of objects and formats are kept, there is one weight per random object, and data weights are not changed. *)
Theorem C87_objects : forall cp clone rc d2z a u params zb bias z t dtype data dw randoms rw data' dw' randoms' rw' n m, In t ["pos"; "xyz"; "rdd"; "rdz"]%string -> shaped t n data -> shaped t m randoms ->
  procedure cp clone rc d2z a u params zb bias z t dtype data dw randoms rw = Ok (data', dw', (randoms', rw')) -> weights_fit rw m ->
  shaped t n data' /\ shaped t m randoms' /\ dw' = dw /\ List.length rw' = m.
Proof.
  intros cp clone rc d2z a u params zb bias z t dtype data dw randoms rw data' dw' randoms' rw' n m T SD SR H WF. unfold procedure in H. destruct (get_cosmo_blind_of cp clone a u params zb) as [blind|]; [|discriminate]. cbn [bind] in H.
  unfold blinding_new in H. destruct (get_cosmo cp a) as [[fid|]|]; cbn [bind get_cosmo] in H; try discriminate. unfold png_call, rsd_call, ap_call in H. cbn [b_fid b_blind b_bias b_z b_type b_dtype given bind] in H.
  destruct (format_positions t dtype (c_distance fid) data) as [dpos|] eqn:FD; [|discriminate]. cbn [bind] in H. destruct (format_positions t dtype (c_distance fid) randoms) as [rpos|] eqn:FR; [|discriminate]. cbn [bind] in H.
  destruct (get_from_cosmo fid "f" (Some z)) as [f|]; [|discriminate]. cbn [bind] in H. destruct (png_weights false _ fid blind (Some z) true false rpos rw) as [w|] eqn:W; [|discriminate]. cbn [bind] in H.
  destruct (rsd fid blind (Some z) d2z t dtype _ data) as [d1|] eqn:E1; [|discriminate]. cbn [bind] in H. destruct (ap fid blind d2z t dtype d1) as [d2|] eqn:E2; [|discriminate]. cbn [bind] in H. destruct (ap fid blind d2z t dtype randoms) as [r2|] eqn:E3; [|discriminate]. cbn [bind] in H. injection H as <- <- <- <-.
  split; [|split; [|split] ]; auto.
  - eapply C46_ap_format; [auto| |exact E2]. eapply C46_rsd_format; [auto|exact SD|exact E1].
  - eapply C46_ap_format; [auto|exact SR|exact E3].
  - unfold png_weights in W. destruct (get_from_cosmo blind "fnl" None) as [fnl|]; [|discriminate]. cbn [bind] in W. destruct (map2_result _ (map _ rpos) _) as [prod|]; [|discriminate]. cbn [bind] in W. apply map2_result_length in W. destruct W as [W _]. rewrite W.
    rewrite (fmt_length _ _ _ _ _ _ SR FR). apply weights_fit_length. auto.
Qed.
Print Assumptions C87_objects.
(** What happens to each object, for sky coordinates and redshifts and shifts along the line of sight: sky coordinates stay; the distance of data first changes by the
    relative change of growth rate times the shift; then all redshifts become those at which the fiducial distance is the blinded one. *)
Theorem C87_effect : forall cp clone rc d2z a fid u params zb blind bias z dtype d l m dw rw f fb fnl k z1, means cp a fid -> get_cosmo_blind clone fid u params zb = Ok blind -> floating (cast dtype d) = true -> sound rc ->
  growth_rate fid (Some z) f -> f <> 0 -> growth_rate blind None fb -> get_from_cosmo blind "fnl" None = Ok fnl -> weights_fit rw (List.length m) ->
  along_sight l k (r_shifts (rc_rsd rc bias f (place fid l) dw (place fid m) rw) (place fid l)) ->
  (forall x y, d2z (c_distance fid) x = Ok y -> c_distance fid y = x) ->
  Forall (fun s => on_sky s /\ 0 < c_distance fid (snd s) + (fb / f - 1) * k s /\ d2z (c_distance fid) (c_distance fid (snd s) + (fb / f - 1) * k s) = Ok (z1 s) /\
    0 < z1 s /\ 0 < c_distance blind (z1 s) /\ exists y, d2z (c_distance fid) (c_distance blind (z1 s)) = Ok y) l ->
  Forall (fun s => on_sky s /\ 0 < c_distance blind (snd s) /\ exists y, d2z (c_distance fid) (c_distance blind (snd s)) = Ok y) m ->
  exists l' m' w, procedure cp clone rc d2z a u params zb bias z "rdz" dtype (as_sky d l) dw (as_sky d m) rw = Ok (as_sky F8 l', dw, (as_sky F8 m', w)) /\
    each (fun s s' => fst s' = fst s /\ exists y, c_distance fid y = c_distance fid (snd s) + (fb / f - 1) * k s /\ c_distance fid (snd s') = c_distance blind y) l l' /\
    each (fun s s' => fst s' = fst s /\ c_distance fid (snd s') = c_distance blind (snd s)) m m' /\
    png_weights false (rc_png rc bias f (place fid l) dw (place fid m) rw) fid blind (Some z) true false (place fid m) rw = Ok w.
Proof.
  intros cp clone rc d2z a fid u params zb blind bias z dtype d l m dw rw f fb fnl k z1 M B F SO GF NZ GB FN WF AS INV HL HM. destruct (C87_cosmology cp a fid M) as (_ & _ & EQ). rewrite EQ. unfold procedure, get_cosmo_blind_of, blinding_new. cbn [get_cosmo bind given]. rewrite B. cbn [bind].
  unfold png_call, rsd_call, ap_call. cbn [b_fid b_blind b_bias b_z b_type b_dtype given bind]. rewrite !fmt_rdz by auto. rewrite !place_s2c. cbn [bind]. unfold growth_rate in GF. rewrite GF. cbn [bind].
  destruct (SO bias f (place fid l) dw (place fid m) rw) as (S1 & S2 & S3 & S4).
  assert (LM : List.length (place fid m) = List.length m) by (unfold place; apply map_length).
  assert (FA : floating (cast dtype F8) = true) by (destruct dtype as [[]|]; auto).
  pose proof (png_weights_ok false (rc_png rc bias f (place fid l) dw (place fid m) rw) fid blind (Some z) true (place fid m) rw fnl FN S3) as PW. rewrite LM in PW. specialize (PW (weights_fit_length _ _ WF)).
  rewrite PW. cbn [bind]. rewrite (rsd_sight fid blind z d2z dtype d (fun f pos => rc_rsd rc bias f pos dw (place fid m) rw) l k fb f z1 F GF GB NZ S1 AS). 2:{ eapply Forall_impl; [|exact HL]. intros s (? & ? & ? & _). auto. }
  cbn [bind]. destruct (C43_rdz fid blind d2z dtype F8 (map (fun s => (fst s, z1 s)) l) FA INV) as (l' & E2 & EA2).
  { rewrite Forall_map. eapply Forall_impl; [|exact HL]. intros [[ra dec] r] ((O1 & O2 & O3) & _ & _ & P1 & P2 & P3). cbn in *. auto. }
  rewrite E2. cbn [bind]. destruct (C43_rdz fid blind d2z dtype d m F INV HM) as (m' & E3 & EA3). rewrite E3. cbn [bind]. eexists l', m', _. split; [reflexivity|]. split; [|split; auto].
  clear - EA2 HL INV. revert l' EA2. unfold each. induction HL as [|s l (O & P & Q & _) _ IH]; intros l' EA; cbn [map] in EA; inversion EA as [|? s' ? l0 [A1 A2] EA']; subst; constructor; auto. cbn [fst snd] in *. split; auto. exists (z1 s). split; auto.
Qed.
Print Assumptions C87_effect.
(** The weights of randoms, when the density contrast has a single scale: the non-Gaussian bias at that scale, times the density contrast, is subtracted. *)
Theorem C87_weights : forall cp clone rc d2z a fid u params zb blind bias z t dtype data rpos dpos dw randoms rw out rw' f fnl kappa, means cp a fid -> get_cosmo_blind clone fid u params zb = Ok blind -> sound rc ->
  format_positions t dtype (c_distance fid) data = Ok dpos -> format_positions t dtype (c_distance fid) randoms = Ok rpos -> growth_rate fid (Some z) f -> get_from_cosmo blind "fnl" None = Ok fnl -> weights_fit rw (List.length rpos) ->
  (let g := rc_png rc bias f dpos dw rpos rw in 0 < kappa /\ only_scale (pg_freq g) (pg_box g) (pg_n g) kappa (pg_delta g)) ->
  procedure cp clone rc d2z a u params zb bias z t dtype data dw randoms rw = Ok (out, (fst rw', snd rw')) ->
  let g := rc_png rc bias f dpos dw rpos rw in
  each (fun x v => v = fst x * (1 - 2 * (1686 / 1000) * (bias - 1) * fnl / pg_tk g kappa * snd x)) (combine (weights_or_one rw (List.length rpos)) (pg_readout g (c2r (pg_n g) (pg_delta g)) rpos)) (snd rw').
Proof.
  intros cp clone rc d2z a fid u params zb blind bias z t dtype data rpos dpos dw randoms rw out rw' f fnl kappa M B SO FD FR GF FN WF [KP OS] H g. destruct (C87_cosmology cp a fid M) as (_ & _ & EQ). rewrite EQ in H. unfold procedure, get_cosmo_blind_of, blinding_new in H. cbn [get_cosmo bind given] in H. rewrite B in H. cbn [bind] in H.
  unfold png_call in H. cbn [b_fid b_blind b_bias b_z b_type b_dtype given bind] in H. rewrite FD in H. cbn [bind] in H. rewrite FR in H. cbn [bind] in H. unfold growth_rate in GF. rewrite GF in H. cbn [bind] in H. fold g in H.
  destruct (SO bias f dpos dw rpos rw) as (S1 & S2 & S3 & S4). fold g in S3, S4. destruct (C45_png_scale false g fid blind (Some z) true rpos rw fnl kappa FN S3 (weights_fit_length _ _ WF) KP OS) as (w & W & EA). rewrite W in H. cbn [bind] in H.
  destruct (rsd_call _ _ _ _ _ _ _) as [d1|]; [|discriminate]. cbn [bind] in H. destruct (ap_call _ _ d1) as [d2|]; [|discriminate]. cbn [bind] in H. destruct (ap_call _ _ randoms) as [r2|]; [|discriminate]. cbn [bind] in H. injection H as _ _ <-.
  rewrite S4 in EA. clear - EA. unfold each in *. clearbody g. revert EA. generalize (combine (weights_or_one rw (List.length rpos)) (pg_readout g (c2r (pg_n g) (pg_delta g)) rpos)) as c. intros c EA. induction EA as [|x v c w0 E _ IH]; constructor; auto. rewrite E. unfold Rdiv. ring.
Qed.
Print Assumptions C87_weights.
(** Zero uncertainties: nothing changes, for sky coordinates and redshifts and for Cartesian positions, when only parameters that do not depend on redshift are given with f and fnl. *)
Theorem C87_nothing : forall cp clone rc d2z a fid u params bias z dtype d dw rw f, means cp a fid -> clone_same clone fid -> NoDup (map fst params) -> (forall name sigma, In (name, sigma) params -> sigma = 0 /\ steady name) -> In "f"%string (map fst params) -> In "fnl"%string (map fst params) ->
  (exists blind, get_cosmo_blind clone fid u (Some params) (Some z) = Ok blind) -> get_from_cosmo fid "fnl" (Some z) = Ok 0 -> growth_rate fid (Some z) f -> f <> 0 -> sound rc -> floating (cast dtype d) = true ->
  (forall l m, Forall (fun s => on_sky s /\ 0 < c_distance fid (snd s) /\ inverse_at (d2z (c_distance fid)) (c_distance fid) (snd s)) (l ++ m) -> weights_fit rw (List.length m) ->
    procedure cp clone rc d2z a u (Some params) (Some z) bias z "rdz" dtype (as_sky d l) dw (as_sky d m) rw = Ok (as_sky F8 l, dw, (as_sky F8 m, weights_or_one rw (List.length m)))) /\
  (forall l m y, Forall (fun p => p <> vzero /\ d2z (c_distance fid) (dist3 p vzero) = Ok (y p) /\ c_distance fid (y p) = dist3 p vzero) (l ++ m) -> weights_fit rw (List.length m) ->
    procedure cp clone rc d2z a u (Some params) (Some z) bias z "pos" dtype (as_pos d l) dw (as_pos d m) rw = Ok (as_pos F8 l, dw, (as_pos F8 m, weights_or_one rw (List.length m)))).
Proof.
  intros cp clone rc d2z a fid u params bias z dtype d dw rw f M CS ND ST IF IN [blind B] FZ GF NZ SO F. destruct (C87_cosmology cp a fid M) as (_ & _ & EQ).
  assert (GB : growth_rate blind None f).
  { apply in_map_iff in IF. destruct IF as [[n s] [X I0]]. cbn in X. subst n. destruct (blind_derived clone fid u params (Some z) blind "f" s ND B eq_refl I0) as (v & j & V1 & V2). unfold growth_rate in *. rewrite GF in V1. injection V1 as <-. rewrite V2. destruct (ST _ _ I0) as [-> _]. f_equal. ring. }
  assert (FB : get_from_cosmo blind "fnl" None = Ok 0).
  { apply in_map_iff in IN. destruct IN as [[n s] [X I0]]. cbn in X. subst n. destruct (blind_derived clone fid u params (Some z) blind "fnl" s ND B eq_refl I0) as (v & j & V1 & V2). rewrite FZ in V1. injection V1 as <-. rewrite V2. destruct (ST _ _ I0) as [-> _]. f_equal. ring. }
  assert (DB : forall y, c_distance blind y = c_distance fid y).
  { unfold get_cosmo_blind in B. destruct (draw_params fid u 0 params (Some z)) as [[upd derived]|] eqn:D; [|discriminate]. cbn [bind] in B. apply ok_inj_p in B. subst blind. cbn [c_distance]. apply CS. eapply zero_draws; eauto. }
  assert (FA : floating (cast dtype F8) = true) by (destruct dtype as [[]|]; auto).
  assert (UG : forall dw rpos rw, uses_growth fid (Some z) (ByName (fun f pos => rc_rsd rc bias f pos dw rpos rw)) f). { intros. split; auto. intros pos. destruct (SO bias f pos dw0 rpos rw0) as (S1 & S2 & _). auto. }
  split.
  - intros l m H WF. apply Forall_app in H. destruct H as [HL HM]. rewrite EQ. unfold procedure, get_cosmo_blind_of, blinding_new. cbn [get_cosmo bind given]. rewrite B. cbn [bind].
    unfold png_call, rsd_call, ap_call. cbn [b_fid b_blind b_bias b_z b_type b_dtype given bind]. rewrite !fmt_rdz by auto. rewrite !place_s2c. cbn [bind]. pose proof GF as GF'. unfold growth_rate in GF'. rewrite GF'. cbn [bind].
    assert (LM : List.length (place fid m) = List.length m) by (unfold place; apply map_length). destruct (SO bias f (place fid l) dw (place fid m) rw) as (S1 & S2 & S3 & S4).
    rewrite (C45_png_nothing false _ fid blind (Some z) true (place fid m) rw 0 FB (or_introl eq_refl) S3); rewrite LM; [|apply weights_fit_length; auto]. cbn [bind].
    destruct (C45_rsd_identity fid blind (Some z) d2z dtype d (ByName (fun f pos => rc_rsd rc bias f pos dw (place fid m) rw)) f F GB (UG _ _ _) NZ) as (_ & _ & _ & R4). rewrite R4. 2:{ eapply Forall_impl; [|exact HL]. intros s (A & _). exact A. } 2:{ eapply Forall_impl; [|exact HL]. intros s (_ & A). exact A. }
    cbn [bind]. rewrite (C43_identity_rdz fid blind d2z dtype F8 l FA DB HL). cbn [bind]. rewrite (C43_identity_rdz fid blind d2z dtype d m F DB HM). cbn [bind]. auto.
  - intros l m y H WF. apply Forall_app in H. destruct H as [HL HM]. rewrite EQ. unfold procedure, get_cosmo_blind_of, blinding_new. cbn [get_cosmo bind given]. rewrite B. cbn [bind].
    unfold png_call, rsd_call, ap_call. cbn [b_fid b_blind b_bias b_z b_type b_dtype given bind]. rewrite !fmt_pos by auto. cbn [bind]. pose proof GF as GF'. unfold growth_rate in GF'. rewrite GF'. cbn [bind].
    destruct (SO bias f l dw m rw) as (S1 & S2 & S3 & S4).
    rewrite (C45_png_nothing false _ fid blind (Some z) true m rw 0 FB (or_introl eq_refl) S3 (weights_fit_length _ _ WF)). cbn [bind].
    destruct (C45_rsd_identity fid blind (Some z) d2z dtype d (ByName (fun f pos => rc_rsd rc bias f pos dw m rw)) f F GB (UG _ _ _) NZ) as (R1 & _). rewrite R1. cbn [bind].
    destruct (C43_identity_cartesian fid blind d2z dtype F8 y l FA DB HL) as [A1 _]. destruct (C43_identity_cartesian fid blind d2z dtype d y m F DB HM) as [A2 _]. rewrite A1. cbn [bind]. rewrite A2. cbn [bind]. auto.
Qed.
Print Assumptions C87_nothing.
(** Exchanging the two cosmologies undoes ap. *)
Theorem C87_undo : forall fid blind bias z dtype dtype' d2z d l, floating (cast dtype d) = true -> floating (cast dtype' F8) = true -> (forall x y, d2z (c_distance fid) x = Ok y -> c_distance fid y = x) ->
  (forall s, In s l -> on_sky s /\ 0 < c_distance blind (snd s) /\ inverse_at (d2z (c_distance blind)) (c_distance blind) (snd s) /\ exists y, 0 < y /\ d2z (c_distance fid) (c_distance blind (snd s)) = Ok y) ->
  exists l', ap_call (Blinding (Some fid) (Some blind) bias z "rdz" dtype) d2z (as_sky d l) = Ok (as_sky F8 l') /\
    ap_call (Blinding (Some blind) (Some fid) bias z "rdz" dtype') d2z (as_sky F8 l') = Ok (as_sky F8 l).
Proof.
  intros fid blind bias z dtype dtype' d2z d l F F' INV H. set (y := fun s : R * R * R => match d2z (c_distance fid) (c_distance blind (snd s)) with Ok y => y | Err _ => 0 end).
  destruct (C43_rdz fid blind d2z dtype d l F INV) as (l' & E & EA). { apply Forall_forall. intros s I0. destruct (H s I0) as (O & P & _ & y0 & _ & Q). eauto. }
  exists l'. unfold ap_call. cbn [b_fid b_blind b_type b_dtype given bind]. split; auto.
  assert (L : l' = map (fun s => (fst s, y s)) l /\ forall s, In s l -> 0 < y s /\ c_distance fid (y s) = c_distance blind (snd s)).
  { assert (EX : ap fid blind d2z "rdz" dtype (as_sky d l) = Ok (as_sky F8 (map (fun s => (fst s, y s)) l))).
    { unfold ap. cbn [String.eqb Ascii.eqb Bool.eqb]. rewrite fmt_rdd by auto. cbn [bind]. rewrite (ap_sky true _ _ snd l).
      + cbn [bind]. rewrite <- (map_map (fun s : R * R * R => (fst s, c_distance blind (snd s))) (s2c (fun r => r))). unfold format_output_positions. cbn [String.eqb Ascii.eqb Bool.eqb]. rewrite sky_rows_ok.
        * cbn [bind]. rewrite !map_map. cbn. rewrite (map_result_ok _ (fun x => match d2z (c_distance fid) x with Ok z => z | Err _ => 0 end)).
          -- cbn [bind]. unfold as_sky. rewrite !map_map. auto.
          -- rewrite Forall_map. apply Forall_forall. intros s I0. destruct (H s I0) as (_ & _ & _ & y0 & _ & Q). rewrite Q. auto.
        * rewrite Forall_map. apply Forall_forall. intros [[ra dec] r] I0. destruct (H _ I0) as ((O1 & O2 & O3) & P & _). cbn in *. auto.
      + apply Forall_forall. intros s I0. destruct (H s I0) as (O & P & _). auto. }
    split.
    - rewrite E in EX. assert (AI : forall a b, as_sky F8 a = as_sky F8 b -> a = b).
      { clear. unfold as_sky. intros a b X. injection X as X1 X2 X3. revert b X1 X2 X3. induction a as [|[[a1 a2] a3] a IH]; intros [|[[b1 b2] b3] b] X1 X2 X3; cbn in *; try discriminate; auto. injection X1 as -> X1. injection X2 as -> X2. injection X3 as -> X3. f_equal. auto. }
      apply AI. congruence.
    - intros s I0. destruct (H s I0) as (_ & _ & _ & y0 & P & Q). unfold y. rewrite Q. split; auto. }
  destruct L as [-> L]. unfold ap. cbn [String.eqb Ascii.eqb Bool.eqb]. rewrite fmt_rdd by auto. cbn [bind]. rewrite (ap_sky true _ _ snd).
  - cbn [bind]. rewrite map_map. cbn [fst snd]. rewrite <- (map_map (fun s : R * R * R => (fst s, c_distance fid (y s))) (s2c (fun r => r))). unfold format_output_positions. cbn [String.eqb Ascii.eqb Bool.eqb]. rewrite sky_rows_ok.
    + cbn [bind]. rewrite !map_map. cbn. rewrite (map_result_ok _ (fun x => match d2z (c_distance blind) x with Ok z => z | Err _ => 0 end)).
      * cbn [bind]. unfold as_sky. rewrite !map_map. do 6 f_equal. apply map_ext_in. intros s I0. destruct (L s I0) as [_ E2]. destruct (H s I0) as (_ & _ & Q & _). unfold inverse_at in Q. rewrite E2, Q. auto.
      * rewrite Forall_map. apply Forall_forall. intros s I0. destruct (L s I0) as [_ E2]. destruct (H s I0) as (_ & _ & Q & _). unfold inverse_at in Q. rewrite E2, Q. auto.
    + rewrite Forall_map. apply Forall_forall. intros [[ra dec] r] I0. destruct (L _ I0) as [_ E2]. destruct (H _ I0) as ((O1 & O2 & O3) & P & _). cbn in *. rewrite E2. auto.
  - rewrite Forall_map. apply Forall_forall. intros [[ra dec] r] I0. destruct (L _ I0) as [P2 E2]. destruct (H _ I0) as ((O1 & O2 & O3) & P & _). cbn in *. rewrite E2. auto.
Qed.
Print Assumptions C87_undo.
