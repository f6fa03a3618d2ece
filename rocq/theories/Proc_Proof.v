(** Lemmas for the blinding procedure. *)
Require Import Reals ZArith String List Bool Lra Lia.
From Verif Require Import Base Vec3 Isometry_Model Isometry_Spec Isometry_Proof Sky_Model Sky_Spec Sky_Proof Cutsky_Model Box_Model Rsd_Model Mock_Model Blind_Model Blind_Spec Blind_Thm Blind_Thm2 Blind_Thm4 Proc_Model Proc_Spec.
Import ListNotations.
Open Scope R_scope.

Lemma direction_s2c : forall D s, s2c D s = vscale (D (snd s)) (direction s).
Proof.
  intros D [[ra dec] r]. unfold s2c, sky_to_cartesian, direction. cbn [fst snd num_val result_type3 store_as].
  unfold conversion. replace (dec * (PI / 180)) with (dec * PI / 180) by (unfold Rdiv; ring). replace (ra * (PI / 180)) with (ra * PI / 180) by (unfold Rdiv; ring). reflexivity.
Qed.
Lemma place_s2c : forall c l, map (s2c (c_distance c)) l = place c l.
Proof. intros c l. apply map_ext. intros s. apply direction_s2c. Qed.
Lemma get_cosmo_means : forall cp a c, get_cosmo cp a = Ok (Some c) <-> means cp a c.
Proof.
  intros cp a c. split.
  - destruct a as [|c0|name|name params|params]; cbn; intro H; try discriminate.
    + injection H as ->. constructor.
    + destruct (cp_fiducial cp name) as [make|] eqn:E; [|discriminate]. destruct (make []) as [x|] eqn:M; [|discriminate]. injection H as ->. econstructor; eauto.
    + destruct (cp_fiducial cp name) as [make|] eqn:E; [|discriminate]. destruct (make params) as [x|] eqn:M; [|discriminate]. injection H as ->. econstructor; eauto.
    + destruct (cp_cosmology cp params) as [x|] eqn:M; [|discriminate]. injection H as ->. constructor; auto.
  - intro M. destruct M; cbn; try rewrite H; try rewrite H0; auto.
Qed.
Lemma weights_fit_length : forall w n, weights_fit w n -> List.length (weights_or_one w n) = n.
Proof. intros [w|] n H; cbn in *; auto. apply repeat_length. Qed.
(** The growth rate is needed at a redshift. *)
Lemma plain_needs_redshift : forall clone fid u, plain fid -> exists e, get_cosmo_blind clone fid u None None = Err e.
Proof.
  intros clone fid u [P1 P2]. destruct (C42_growth_needs_redshift clone fid u default_params (5 / 100) P1 P2) as [e E]; [cbn; auto 10|]. exists e. exact E.
Qed.
(** The values read in a blinded cosmology for f and fnl. *)
Lemma blind_derived : forall clone fid u params z blind name sigma, NoDup (map fst params) -> get_cosmo_blind clone fid u (Some params) z = Ok blind -> is_derived name = true -> In (name, sigma) params ->
  exists v j, get_from_cosmo fid name z = Ok v /\ get_from_cosmo blind name None = Ok (v + 2 * sigma * (u j - 1 / 2)).
Proof.
  intros clone fid u params z blind name sigma ND H Q I0. unfold get_cosmo_blind in H. destruct (draw_params fid u 0 params z) as [[upd derived]|] eqn:D; [|discriminate]. cbn [bind] in H. apply ok_inj_p in H. subst blind.
  assert (DS : forall params i upd derived, draw_params fid u i params z = Ok (upd, derived) -> map fst derived = filter is_derived (map fst params) /\
    forall sigma, In (name, sigma) params -> exists v j, get_from_cosmo fid name z = Ok v /\ In (name, v + 2 * sigma * (u j - 1 / 2)) derived).
  { clear - Q. induction params as [|[n s] params IH]; intros i upd derived H; cbn [draw_params] in H.
    - injection H as <- <-. split; auto. intros sigma [].
    - destruct (get_from_cosmo fid n z) as [v|] eqn:E; [|discriminate]. cbn [bind] in H. destruct (draw_params fid u (S i) params z) as [[upd' derived']|] eqn:D; [|discriminate]. cbn [bind] in H. destruct (IH _ _ _ D) as [I1 I2].
      change (String.eqb n "f" || String.eqb n "fnl")%bool with (is_derived n) in H. cbn [map fst filter]. destruct (is_derived n) eqn:Q'; injection H as <- <-; cbn [map fst].
      + split; [rewrite I1; auto|]. intros sigma [X|X]; [injection X as -> ->; exists v, i; split; auto; left; auto|]. destruct (I2 sigma X) as (v' & j & A & B). exists v', j. split; auto. right; auto.
      + split; auto. intros sigma [X|X]; [injection X as -> ->; congruence|]. destruct (I2 sigma X) as (v' & j & A & B). exists v', j. auto. }
  destruct (DS _ _ _ _ D) as [K2 K3]. destruct (K3 sigma I0) as (v & j & V1 & V2). exists v, j. split; auto.
  assert (ND2 : NoDup (map fst derived)) by (rewrite K2; apply filter_nodup; auto).
  unfold get_from_cosmo. cbn [c_derived]. assert (P1 : String.prefix "omega" name = false /\ String.prefix "Omega" name = false). { unfold is_derived in Q. apply orb_true_iff in Q. destruct Q as [Q|Q]; apply String.eqb_eq in Q; subst name; auto. }
  destruct P1 as [-> ->]. rewrite assoc_update by auto. rewrite (assoc_in _ _ _ ND2 V2). auto.
Qed.
Lemma steady_today : forall c name z v, steady name -> is_derived name = false -> get_from_cosmo c name z = Ok v -> get_from_cosmo c name None = Ok v.
Proof.
  intros c name z v (S1 & S2 & S3) D H. unfold density_name in S1. apply orb_false_iff in S1. destruct S1 as [S0 S1]. unfold is_derived in D. apply orb_false_iff in D. destruct D as [D0 D1].
  unfold get_from_cosmo in *. rewrite S0, S1 in *. destruct (assoc name (c_derived c)); auto. rewrite <- String.eqb_neq in S2, S3. rewrite S2, S3, D0, D1 in *. auto.
Qed.
Lemma zero_draws : forall fid u params i z upd derived, (forall name sigma, In (name, sigma) params -> sigma = 0 /\ steady name) -> draw_params fid u i params z = Ok (upd, derived) ->
  forall name v, In (name, v) upd -> get_from_cosmo fid name None = Ok v.
Proof.
  intros fid u. induction params as [|[n s] params IH]; intros i z upd derived ST H name v I0; cbn [draw_params] in H.
  - injection H as <- <-. destruct I0.
  - destruct (get_from_cosmo fid n z) as [v0|] eqn:E; [|discriminate]. cbn [bind] in H. destruct (draw_params fid u (S i) params z) as [[upd' derived']|] eqn:D; [|discriminate]. cbn [bind] in H.
    change (String.eqb n "f" || String.eqb n "fnl")%bool with (is_derived n) in H. assert (ST' : forall name sigma, In (name, sigma) params -> sigma = 0 /\ steady name) by (intros; apply ST; right; auto).
    destruct (is_derived n) eqn:Q; injection H as <- <-; [eapply IH; eauto|]. destruct I0 as [X|X]; [|eapply IH; eauto]. injection X as -> <-. destruct (ST name s) as [-> SN]; [left; auto|]. replace (v0 + 2 * 0 * (u i - 1 / 2)) with v0 by ring. eapply steady_today; eauto.
Qed.
(** rsd with shifts along the line of sight, on objects with redshifts. *)
Lemma rsd_sight : forall fid blind z d2z dtype d recon l k fb f z1, floating (cast dtype d) = true -> growth_rate fid (Some z) f -> growth_rate blind None fb -> f <> 0 ->
  r_f (recon f (place fid l)) = f -> along_sight l k (r_shifts (recon f (place fid l)) (place fid l)) ->
  Forall (fun s => on_sky s /\ 0 < c_distance fid (snd s) + (fb / f - 1) * k s /\ d2z (c_distance fid) (c_distance fid (snd s) + (fb / f - 1) * k s) = Ok (z1 s)) l ->
  rsd fid blind (Some z) d2z "rdz" dtype (ByName recon) (as_sky d l) = Ok (as_sky F8 (map (fun s => (fst s, z1 s)) l)).
Proof.
  intros fid blind z d2z dtype d recon l k fb f z1 F GF GB NZ RF RS H. pose proof (fmt_rdz dtype d (c_distance fid) l F) as FM. rewrite place_s2c in FM. set (pos := place fid l) in *. set (r := recon f pos) in *.
  rewrite (rsd_ok fid blind (Some z) d2z "rdz" dtype (ByName recon) r (as_sky d l) pos fb FM GB); [|exists f; auto|rewrite RF; auto|rewrite RS; unfold pos, place; rewrite !map_length; auto].
  rewrite RF, RS. set (dist := fun s : R * R * R => c_distance fid (snd s) + (fb / f - 1) * k s).
  assert (E : blind_rsd (fb / f) pos (map (fun s => vscale (k s) (direction s)) l) = map (s2c (fun r => r)) (map (fun s => (fst s, dist s)) l)).
  { unfold pos, place, blind_rsd. clear. induction l as [|s l IH]; cbn [map combine]; auto. rewrite IH. f_equal. rewrite direction_s2c. cbn [fst snd]. unfold dist. destruct s as [[ra dec] r]. unfold direction. cbn [fst snd].
    unfold vadd, vscale. cbn [vx vy vz]. f_equal; ring. }
  rewrite E. unfold format_output_positions. cbn [String.eqb Ascii.eqb Bool.eqb]. rewrite sky_rows_ok.
  - cbn [bind]. rewrite !map_map. cbn. rewrite (map_result_ok _ (fun x => match d2z (c_distance fid) x with Ok z => z | Err _ => 0 end)).
    + cbn [bind]. unfold as_sky. rewrite !map_map. cbn [fst snd]. do 6 f_equal. apply map_ext_in. intros s I0. rewrite Forall_forall in H. destruct (H s I0) as (_ & _ & X). unfold dist. rewrite X. auto.
    + rewrite Forall_map. eapply Forall_impl; [|exact H]. intros s (_ & _ & X). unfold dist. rewrite X. auto.
  - rewrite Forall_map. eapply Forall_impl; [|exact H]. intros [[ra dec] r0] ((O1 & O2 & O3) & BP & _). cbn in *. auto.
Qed.
