(** Properties C45, C58 and C59: redshift-space and non-Gaussianity blinding, effective redshift, shot-noise factor. Vocabulary in Blind_Spec.v. *)
Require Import Reals ZArith List Bool String Lra Lia Permutation.
From Verif Require Import Base Vec3 Isometry_Model Isometry_Spec Isometry_Proof Sky_Model Sky_Spec Sky_Proof Sky_Thm Cutsky_Model Box_Model Rsd_Model Rsd_Spec Rsd_Proof Density_Proof Mock_Model Mock_Spec Mock_Thm Mock_Thm2 Interlace_Thm Blind_Model Blind_Spec Blind_Thm2.
Import ListNotations.
Open Scope R_scope.

(** C45. Redshift-space distortions. *)
Lemma map2_ok : forall {A B C} (f : A -> B -> C) a b, List.length a = List.length b -> map2_result (fun x y => Ok (f x y)) a b = Ok (map (fun x => f (fst x) (snd x)) (combine a b)).
Proof. intros A B C f. induction a as [|x a IH]; intros [|y b] L; cbn in *; try lia; auto. rewrite IH by lia. auto. Qed.
Definition blind_rsd (ratio : R) (pos shifts : list vec) : list vec := map (fun x => vadd (fst x) (vscale (ratio - 1) (snd x))) (combine pos shifts).
Lemma rsd_ok : forall fid blind z d2z t dtype recon r p pos f_blind, format_positions t dtype (c_distance fid) p = Ok pos -> growth_rate blind None f_blind ->
  (match recon with ByName run => exists f, growth_rate fid z f /\ r = run f pos | Instance r' => r = r' end) -> r_f r <> 0 -> List.length (r_shifts r pos) = List.length pos ->
  rsd fid blind z d2z t dtype recon p = format_output_positions t (d2z (c_distance fid)) (blind_rsd (f_blind / r_f r) pos (r_shifts r pos)).
Proof.
  intros fid blind z d2z t dtype recon r p pos fb FP GB RC NZ L. unfold rsd, growth_rate in *. rewrite FP. cbn [bind]. assert (E : match recon with ByName run => do f <- get_from_cosmo fid "f" z; Ok (run f pos) | Instance r => Ok r end = Ok r).
  { destruct recon as [run|r']; [|subst; auto]. destruct RC as (f & G & ->). rewrite G. auto. }
  rewrite E. cbn [bind]. rewrite GB. cbn [bind]. unfold fdiv. destruct (Req_EM_T (r_f r) 0); [contradiction|]. cbn [bind]. rewrite (map2_ok (fun p s => vadd p (vscale (fb / r_f r - 1) s))) by lia. auto.
Qed.
(** The displacement of an object is its redshift-space shift, times the relative change of growth rate. *)
Theorem C45_rsd_linear : forall fid blind z d2z dtype d recon r l f_blind, floating (cast dtype d) = true -> growth_rate blind None f_blind ->
  (match recon with ByName run => exists f, growth_rate fid z f /\ r = run f l | Instance r' => r = r' end) -> r_f r <> 0 -> List.length (r_shifts r l) = List.length l ->
  exists l', rsd fid blind z d2z "pos" dtype recon (as_pos d l) = Ok (as_pos F8 l') /\ rsd fid blind z d2z "xyz" dtype recon (as_xyz d l) = Ok (as_xyz F8 l') /\
    each (fun x q => vsub q (fst x) = vscale ((f_blind - r_f r) / r_f r) (snd x)) (combine l (r_shifts r l)) l'.
Proof.
  intros fid blind z d2z dtype d recon r l fb F GB RC NZ L. exists (blind_rsd (fb / r_f r) l (r_shifts r l)). rewrite (rsd_ok _ _ _ _ _ _ _ r _ l fb (fmt_pos _ _ _ _ F) GB RC NZ L), (rsd_ok _ _ _ _ _ _ _ r _ l fb (fmt_xyz _ _ _ _ F) GB RC NZ L). split; auto. split; auto.
  unfold each, blind_rsd. induction (combine l (r_shifts r l)) as [|[p s] x IH]; cbn [map]; constructor; auto. cbn [fst snd]. destruct p as [p1 p2 p3], s as [s1 s2 s3]. unfold vsub, vadd, vscale, vopp. cbn. f_equal; field; auto.
Qed.
Print Assumptions C45_rsd_linear.
Lemma blind_rsd_one : forall pos shifts, List.length shifts = List.length pos -> blind_rsd 1 pos shifts = pos.
Proof.
  unfold blind_rsd. induction pos as [|p pos IH]; intros [|s shifts] L; cbn in *; try lia; auto. rewrite IH by lia. f_equal. destruct p, s; unfold vadd, vscale; cbn; f_equal; ring.
Qed.
(** Nothing changes when the blinded growth rate is the one of the reconstruction, which is the fiducial one when the reconstruction is run by the code (contract: it uses the growth rate given). *)
Theorem C45_rsd_identity : forall fid blind z d2z dtype d recon f, floating (cast dtype d) = true -> growth_rate blind None f -> uses_growth fid z recon f -> f <> 0 ->
  (forall l, rsd fid blind z d2z "pos" dtype recon (as_pos d l) = Ok (as_pos F8 l)) /\
  (forall l, rsd fid blind z d2z "xyz" dtype recon (as_xyz d l) = Ok (as_xyz F8 l)) /\
  (forall l, Forall on_sky l -> rsd fid blind z d2z "rdd" dtype recon (as_sky d l) = Ok (as_sky F8 l)) /\
  (forall l, Forall on_sky l -> Forall (fun s => 0 < c_distance fid (snd s) /\ inverse_at (d2z (c_distance fid)) (c_distance fid) (snd s)) l -> rsd fid blind z d2z "rdz" dtype recon (as_sky d l) = Ok (as_sky F8 l)).
Proof.
  intros fid blind z d2z dtype d recon f F GB UG NZ.
  assert (GEN : forall t p pos, format_positions t dtype (c_distance fid) p = Ok pos -> rsd fid blind z d2z t dtype recon p = format_output_positions t (d2z (c_distance fid)) pos).
  { intros t p pos FP. destruct recon as [run|r].
    - destruct UG as [G UG]. destruct (UG pos) as [RF RL]. rewrite (rsd_ok fid blind z d2z t dtype (ByName run) (run f pos) p pos f FP GB); [|exists f; auto|rewrite RF; auto|auto]. rewrite RF. replace (f / f) with 1 by (field; auto). rewrite blind_rsd_one; auto.
    - destruct UG as [RF UG]. rewrite (rsd_ok fid blind z d2z t dtype (Instance r) r p pos f FP GB); [|auto|rewrite RF; auto|auto]. rewrite RF. replace (f / f) with 1 by (field; auto). rewrite blind_rsd_one; auto. }
  split; [|split; [|split] ].
  - intros l. rewrite (GEN _ _ _ (fmt_pos dtype d _ l F)). auto.
  - intros l. rewrite (GEN _ _ _ (fmt_xyz dtype d _ l F)). auto.
  - intros l H. pose proof (C46_rdd dtype d (c_distance fid) (d2z (c_distance fid)) l F H) as E. rewrite (fmt_rdd dtype d _ l F) in E. cbn [bind] in E. rewrite (GEN _ _ _ (fmt_rdd dtype d _ l F)). auto.
  - intros l H H2. pose proof (C46_rdz dtype d (c_distance fid) (d2z (c_distance fid)) l F H H2) as E. rewrite (fmt_rdz dtype d _ l F) in E. cbn [bind] in E. rewrite (GEN _ _ _ (fmt_rdz dtype d _ l F)). auto.
Qed.
Print Assumptions C45_rsd_identity.
(** The growth rate of the blinded cosmology is read without a redshift: a cosmology in which it was not stored, like the default one, is refused, even the fiducial cosmology itself. *)
Theorem C45_rsd_same_cosmology_refuted : exists fid z d2z recon l f, growth_rate fid z f /\ uses_growth fid z recon f /\ f <> 0 /\ rsd fid fid z d2z "pos" None recon (as_pos F8 l) = Err ValueError.
Proof.
  exists (line_cosmology 1), (Some 1), line_inverse, (ByName (fun f pos => Recon f (fun x => x))), [V 1 2 3], (1 / 2 / 1). assert (G : growth_rate (line_cosmology 1) (Some 1) (1 / 2 / 1)).
  { unfold growth_rate, get_from_cosmo, get_sigma8; cbn; unfold fdiv; destruct (Req_EM_T 1 0); [lra|auto]. }
  split; auto. split; [split; auto|]. split; [lra|]. unfold rsd. rewrite fmt_pos by auto. cbn [bind]. unfold growth_rate in G. rewrite G. cbn [bind r_shifts]. reflexivity.
Qed.
Print Assumptions C45_rsd_same_cosmology_refuted.

(** Non-Gaussianity. *)
Lemma Rsum_scale : forall {A} t (f : A -> R) l, Rsum (map (fun x => t * f x) l) = t * Rsum (map f l).
Proof. intros A t f l. induction l as [|a l IH]; cbn; [ring|]. unfold Rsum in IH |- *. rewrite IH. ring. Qed.
Lemma png_field_scale : forall freq box n tk t b delta k, png_field freq box n tk (t * b) delta k = cscale t (png_field freq box n tk b delta k).
Proof. intros. unfold png_field. destruct (Req_EM_T _ 0); unfold cscale; cbn; f_equal; unfold Rdiv; ring. Qed.
Lemma c2r_png_scale : forall freq box n tk t b delta x, c2r n (png_field freq box n tk (t * b) delta) x = t * c2r n (png_field freq box n tk b delta) x.
Proof.
  intros. rewrite (c2r_ext n _ (fun k => cscale t (png_field freq box n tk b delta k))) by (intros; apply png_field_scale). rewrite (c2r_scale n (fun _ => t)). unfold c2r. rewrite Rsum_scale. auto.
Qed.
Lemma png_weights_ok : forall data g fid blind z name pos weights fnl, get_from_cosmo blind "fnl" None = Ok fnl -> linear_readout (pg_readout g) -> List.length (weights_or_one weights (List.length pos)) = List.length pos ->
  png_weights data g fid blind z name false pos weights =
  Ok (map (fun x => fst x * (1 + (if data then 1 else -1) * snd x)) (combine (weights_or_one weights (List.length pos)) (pg_readout g (c2r (pg_n g) (png_field (pg_freq g) (pg_box g) (pg_n g) (pg_tk g) (get_bfnl (pg_bias g) fnl) (pg_delta g))) pos))).
Proof.
  intros data g fid blind z name pos weights fnl FN [RL RS] WL. unfold png_weights. rewrite FN. cbn [bind]. set (w := pg_readout g _ pos). assert (LW : List.length w = List.length pos) by apply RL.
  rewrite (map2_ok (fun a b => 1 + (if data then 1 else -1) * (a * b))) by (rewrite map_length; auto). cbn [bind]. assert (E : forall (p : list vec) (v : list R), List.length v = List.length p -> map (fun x => 1 + (if data then 1 else -1) * (fst x * snd x)) (combine (map (fun _ => 1) p) v) = map (fun v => 1 + (if data then 1 else -1) * v) v).
  { induction p as [|q p IH]; intros [|v0 v] L; cbn in *; try lia; auto. rewrite IH by lia. f_equal. ring. }
  rewrite E by auto. rewrite (map2_ok Rmult) by (rewrite map_length, LW; auto). f_equal. set (w0 := weights_or_one weights (List.length pos)) in *. assert (L2 : List.length w0 = List.length w) by lia. clearbody w w0. clear -L2. revert w L2. induction w0 as [|a w0 IH]; intros [|b w] L; cbn in *; try lia; auto. rewrite IH by lia. auto.
Qed.
(** No change of weights when the blinded fnl is zero, or the tracer is not biased. *)
Theorem C45_png_nothing : forall data g fid blind z name pos weights fnl, get_from_cosmo blind "fnl" None = Ok fnl -> fnl = 0 \/ pg_bias g = 1 -> linear_readout (pg_readout g) -> List.length (weights_or_one weights (List.length pos)) = List.length pos ->
  png_weights data g fid blind z name false pos weights = Ok (weights_or_one weights (List.length pos)).
Proof.
  intros data g fid blind z name pos weights fnl FN NO RD WL. rewrite (png_weights_ok _ _ _ _ _ _ _ _ _ FN RD WL). f_equal. destruct RD as [RL RS].
  rewrite (RS 0 (fun _ => 0)). 2:{ intros x. replace (get_bfnl (pg_bias g) fnl) with (0 * 0). 2:{ unfold get_bfnl. destruct NO as [-> | ->]; ring. } rewrite c2r_png_scale. ring. }
  specialize (RL (fun _ => 0) pos). set (w0 := weights_or_one weights (List.length pos)) in *. set (v := pg_readout g (fun _ => 0) pos) in *. assert (L : List.length w0 = List.length v) by lia. clearbody w0 v. clear -L. revert v L. induction w0 as [|a w0 IH]; intros [|b v] L; cbn in *; try lia; auto. rewrite IH by lia. f_equal. ring.
Qed.
Print Assumptions C45_png_nothing.
(** The change of weights is proportional to fnl. *)
Theorem C45_png_linear : forall data g fid blind unit z name pos weights fnl, get_from_cosmo blind "fnl" None = Ok fnl -> get_from_cosmo unit "fnl" None = Ok 1 -> linear_readout (pg_readout g) -> List.length (weights_or_one weights (List.length pos)) = List.length pos ->
  exists w w1, png_weights data g fid blind z name false pos weights = Ok w /\ png_weights data g fid unit z name false pos weights = Ok w1 /\ each (fun x v => v - fst x = fnl * (snd x - fst x)) (combine (weights_or_one weights (List.length pos)) w1) w.
Proof.
  intros data g fid blind unit z name pos weights fnl FN F1 RD WL. rewrite (png_weights_ok _ _ _ _ _ _ _ _ _ FN RD WL), (png_weights_ok _ _ _ _ _ _ _ _ _ F1 RD WL). do 2 eexists. split; [reflexivity|]. split; [reflexivity|]. destruct RD as [RL RS].
  set (m1 := c2r (pg_n g) (png_field _ _ _ _ (get_bfnl _ 1) _)). rewrite (RS fnl m1 (c2r (pg_n g) (png_field (pg_freq g) (pg_box g) (pg_n g) (pg_tk g) (get_bfnl (pg_bias g) fnl) (pg_delta g)))).
  2:{ intros x. unfold m1. rewrite <- c2r_png_scale. f_equal. f_equal. unfold get_bfnl. ring. }
  specialize (RL m1 pos). set (w0 := weights_or_one weights (List.length pos)) in *. set (v := pg_readout g m1 pos) in *. assert (L : List.length w0 = List.length v) by lia. clearbody w0 v. clear -L. revert v L. unfold each. induction w0 as [|a w0 IH]; intros [|b v] L; cbn in *; try lia; constructor; auto. cbn. destruct data; ring.
Qed.
Print Assumptions C45_png_linear.
(** On a density contrast with a single scale, weights are those of the scale-dependent bias, added to data and subtracted from randoms. *)
Theorem C45_png_scale : forall data g fid blind z name pos weights fnl kappa, get_from_cosmo blind "fnl" None = Ok fnl -> linear_readout (pg_readout g) -> List.length (weights_or_one weights (List.length pos)) = List.length pos ->
  0 < kappa -> only_scale (pg_freq g) (pg_box g) (pg_n g) kappa (pg_delta g) ->
  exists w, png_weights data g fid blind z name false pos weights = Ok w /\
    each (fun x v => v = fst x * (1 + (if data then 1 else -1) * (2 * (1686 / 1000) * (pg_bias g - 1) * fnl / pg_tk g kappa) * snd x)) (combine (weights_or_one weights (List.length pos)) (pg_readout g (c2r (pg_n g) (pg_delta g)) pos)) w.
Proof.
  intros data g fid blind z name pos weights fnl kappa FN RD WL KP OS. rewrite (png_weights_ok _ _ _ _ _ _ _ _ _ FN RD WL). eexists. split; [reflexivity|]. destruct RD as [RL RS]. set (al := 2 * (1686 / 1000) * (pg_bias g - 1) * fnl / pg_tk g kappa).
  rewrite (RS al (c2r (pg_n g) (pg_delta g)) (c2r (pg_n g) (png_field (pg_freq g) (pg_box g) (pg_n g) (pg_tk g) (get_bfnl (pg_bias g) fnl) (pg_delta g)))).
  2:{ intros x. unfold c2r at 2. rewrite <- Rsum_scale. unfold c2r. apply Rsum_map_ext. intros k IK. unfold png_field. destruct (OS k IK) as [E|E].
      - rewrite E. destruct (Req_EM_T kappa 0); [lra|]. unfold cscale, cmul. cbn. unfold al, get_bfnl. ring.
      - rewrite E. destruct (Req_EM_T _ 0); unfold cscale, cmul; cbn; ring. }
  specialize (RL (c2r (pg_n g) (pg_delta g)) pos). set (w0 := weights_or_one weights (List.length pos)) in *. set (v := pg_readout g _ pos) in *. assert (L : List.length w0 = List.length v) by lia. clearbody w0 v al. clear -L. revert v L. unfold each. induction w0 as [|a w0 IH]; intros [|b v] L; cbn in *; try lia; constructor; auto. cbn. destruct data; ring.
Qed.
Print Assumptions C45_png_scale.
(** A mesh with one wave, read at its first node. *)
Definition wave_png : png_input :=
  Png (fun n i => Z.of_nat i) (V 1 1 1) (I 2 1 1) (fun k => if Nat.eqb (ix k) 1 then Cx 1 0 else Cx 0 0) 2 15 15 (fun f pos => map (fun _ => f (I 0 0 0)) pos) (fun pos => map (fun _ => 1) pos) (fun _ => 1) (fun _ => 1) 1.
Lemma wave_png_readout : linear_readout (pg_readout wave_png).
Proof. split; intros; cbn; [apply map_length|]. rewrite map_map. apply map_ext. intros _. apply H. Qed.
Lemma wave_png_scale : only_scale (pg_freq wave_png) (pg_box wave_png) (pg_n wave_png) (2 * PI) (pg_delta wave_png).
Proof.
  intros k IK. cbn in IK. pose proof PI_RGT_0. destruct IK as [<-|[<-|[]]]; [right; reflexivity|left]. cbn. unfold wave, vdot. cbn. match goal with |- sqrt ?e = _ => replace e with ((2 * PI) * (2 * PI)) by field end. apply sqrt_square. lra.
Qed.
(** Weights change although the fiducial and the blinded fnl are the same, when they are not zero: the fiducial one is not looked at. *)
Theorem C45_png_same_fnl_refuted : exists data g fid blind z pos w fnl, get_from_cosmo fid "fnl" None = Ok fnl /\ get_from_cosmo blind "fnl" None = Ok fnl /\ linear_readout (pg_readout g) /\
  png_weights data g fid blind z true false pos None = Ok w /\ w <> weights_or_one None (List.length pos).
Proof.
  exists true, wave_png, (toy_blind 5), (toy_blind 5), None, [V 0 0 0]. pose proof PI_RGT_0 as PP. destruct (C45_png_scale true wave_png (toy_blind 5) (toy_blind 5) None true [V 0 0 0] None 5 (2 * PI)) as (w & E & EA); auto using wave_png_readout, wave_png_scale; [lra|].
  exists w, 5. split; [reflexivity|]. split; [reflexivity|]. split; [apply wave_png_readout|]. split; auto. intros ->. unfold each in EA. cbn in EA. inversion EA as [|? ? ? ? X _]; subst. cbn in X. unfold phase in X. cbn in X.
  replace (2 * PI * (1 * 0 / (1 + 1) + 0 * 0 / 1 + 0 * 0 / 1)) with 0 in X by field. rewrite cos_0, sin_0 in X. lra.
Qed.
Print Assumptions C45_png_same_fnl_refuted.
(** With the shot-noise correction: no blinding (fnl = 0) gives NaN, an error here; and a reconstruction that is already run raises, since the growth rate is not defined. *)
Theorem C45_png_shotnoise_refuted : exists data g fid blind z pos, get_from_cosmo blind "fnl" None = Ok 0 /\ growth_rate fid z (1 / 2) /\ linear_readout (pg_readout g) /\
  png_weights data g fid blind z true true pos None = Err ZeroDivision.
Proof.
  exists true, wave_png, (toy_blind 0), (toy_blind 0), None, [V 0 0 0]. split; [reflexivity|]. split; [reflexivity|]. split; [apply wave_png_readout|]. unfold png_weights. change (get_from_cosmo (toy_blind 0) "fnl" None) with (Ok 0 : result R). cbn [bind growth_name]. change (get_from_cosmo (toy_blind 0) "f" None) with (Ok (1 / 2) : result R). cbn [bind].
  change (pg_shotnoise wave_png [V 0 0 0]) with [1]. cbn [map_result]. assert (E : forall b1 f s1 s2 tk pk sd sn, shotnoise_factor b1 f s1 s2 (get_bfnl (pg_bias wave_png) 0) tk pk sd sn = Err ZeroDivision).
  { intros. unfold shotnoise_factor. replace (get_bfnl (pg_bias wave_png) 0) with 0 by (unfold get_bfnl; ring). set (kp := if Rlt_dec 0 0 then _ else _). clearbody kp. cbv zeta. unfold fdiv at 1. destruct (Req_EM_T (tk kp) 0); [reflexivity|]. cbn [bind]. destruct (Rlt_dec _ 0); [auto|].
    unfold fdiv at 1. destruct (Req_EM_T (png_y _ _ _ _ _ _) 0); [auto|]. cbn [bind]. unfold fdiv. destruct (Req_EM_T (0 / tk kp) 0) as [|N]; [auto|]. exfalso. apply N. unfold Rdiv. ring. }
  rewrite E. auto.
Qed.
Print Assumptions C45_png_shotnoise_refuted.
Theorem C45_png_instance_raises : forall data g fid blind z pos weights fnl, get_from_cosmo blind "fnl" None = Ok fnl -> png_weights data g fid blind z false true pos weights = Err NameError.
Proof. intros. unfold png_weights. rewrite H. auto. Qed.
Print Assumptions C45_png_instance_raises.
(** Blinding of positions leaves the barycentre where it is. *)
Lemma sum_zip3 : forall a b c (h : vec -> R) (s : R -> R -> R -> R), (forall x y z, h (V x y z) = s x y z) -> Rsum (map h (zip3 V a b c)) = Rsum (zip3 s a b c).
Proof. induction a as [|x a IH]; intros [|y b] [|z c] h s H; cbn; auto. rewrite H. f_equal. apply IH. auto. Qed.
Lemma Rsum_centred : forall {A} (h : A -> R) (l : list A) m, l <> [] -> m = Rsum (map h l) / INR (List.length l) -> Rsum (map (fun a => h a - m) l) = 0.
Proof.
  intros A h l m N E. assert (G : forall l, Rsum (map (fun a => h a - m) l) = Rsum (map h l) - INR (List.length l) * m). { induction l0 as [|a l0 IH]; [cbn; ring|]. cbn [map List.length]. rewrite S_INR. unfold Rsum in *. cbn [fold_right]. rewrite IH. ring. }
  rewrite G, E. assert (INR (List.length l) <> 0). { apply not_0_INR. destruct l; [contradiction|discriminate]. } field. auto.
Qed.
Lemma Rsum_pairs : forall (a b : vec -> R) (f : vec -> vec -> vec) (h : vec -> R) sg pos s, List.length pos = List.length s -> (forall p q, h (f p q) = a p + sg * b q) ->
  Rsum (map (fun x => h (f (fst x) (snd x))) (combine pos s)) = Rsum (map a pos) + sg * Rsum (map b s).
Proof. intros a b f h sg. induction pos as [|p pos IH]; intros [|q s] L H; cbn in *; try lia; [ring|]. rewrite H. unfold Rsum in *. rewrite (IH s) by (auto; lia). ring. Qed.
Theorem C45_png_barycentre : forall data g blind pos l', linear_readout (pg_readout g) -> png_positions data g blind false pos = Ok (as_pos F8 l') ->
  Rsum (map vx l') = Rsum (map vx pos) /\ Rsum (map vy l') = Rsum (map vy pos) /\ Rsum (map vz l') = Rsum (map vz pos).
Proof.
  intros data g blind pos l' [RL RS] H. unfold png_positions in H. destruct (get_from_cosmo blind "fnl" None) as [fnl|]; [|discriminate]. cbn [bind] in H. cbv zeta in H. set (sh := zip3 V _ _ _) in H.
  destruct (mean_vec sh) as [m|] eqn:M; [|discriminate]. cbn [bind] in H. destruct (map2_result _ pos _) as [out|] eqn:E; [|discriminate]. cbn [bind] in H. apply ok_inj_p in H. unfold as_pos in H. injection H as H.
  assert (OL : out = l'). { clear -H. revert l' H. induction out as [|[a b c] out IH]; intros [|[x y z] l'] H; try discriminate; auto. cbn in H. injection H as -> -> -> H. f_equal; auto. } subst out. clear H.
  pose proof (map2_result_length _ _ _ _ E) as [_ L]. rewrite (map2_ok (fun p s => if data then vadd p s else vsub p s)) in E by auto. apply ok_inj_p in E. subst l'. rewrite !map_map.
  assert (NE : sh <> []). { intro Z0. clearbody sh. subst sh. unfold mean_vec, fdiv in M. change (INR (List.length (@nil vec))) with 0 in M. destruct (Req_EM_T 0 0) as [_|N0]; [discriminate M|apply N0; reflexivity]. }
  assert (ND : INR (List.length sh) <> 0) by (apply not_0_INR; destruct sh; [contradiction|discriminate]). unfold mean_vec, fdiv in M. destruct (Req_EM_T (INR (List.length sh)) 0); [contradiction|]. cbn [bind] in M. apply ok_inj_p in M. subst m.
  rewrite (Rsum_pairs vx vx (fun p s => if data then vadd p s else vsub p s) vx (if data then 1 else -1)), (Rsum_pairs vy vy (fun p s => if data then vadd p s else vsub p s) vy (if data then 1 else -1)), (Rsum_pairs vz vz (fun p s => if data then vadd p s else vsub p s) vz (if data then 1 else -1)); auto; try (intros [] []; destruct data; cbn; ring).
  assert (CT : forall h, (forall a b, h (vsub a b) = h a - h b) -> forall m, h m = Rsum (map h sh) / INR (List.length sh) -> Rsum (map (fun x => h (vsub x m)) sh) = 0).
  { intros h HS m HM. rewrite (Rsum_map_ext _ (fun x => h x - h m)) by auto. apply Rsum_centred; auto. }
  rewrite !map_map. rewrite (CT vx), (CT vy), (CT vz); try reflexivity; try (intros [] []; unfold vsub; cbn; ring). split; [|split]; ring.
Qed.
Print Assumptions C45_png_barycentre.
Example C45_case : growth_rate (toy_blind 0) None (1 / 2) /\ uses_growth (line_cosmology 1) (Some 1) (Instance (Recon (1 / 2) (map (fun p => vscale (1 / 100) p)))) (1 / 2) /\ linear_readout (pg_readout wave_png) /\ only_scale (pg_freq wave_png) (pg_box wave_png) (pg_n wave_png) (2 * PI) (pg_delta wave_png) /\
  exists l', png_positions true wave_png (toy_blind 3) false [V 0 0 0; V 1 0 0] = Ok (as_pos F8 l').
Proof.
  split; [reflexivity|]. split; [split; auto; intros; apply map_length|]. split; [apply wave_png_readout|]. split; [apply wave_png_scale|].
  unfold png_positions. change (get_from_cosmo (toy_blind 3) "fnl" None) with (Ok 3 : result R). cbn [bind]. cbv zeta. cbn [pg_readout wave_png map zip3]. unfold mean_vec, fdiv. cbn [List.length map]. assert (N : INR 2 <> 0) by (cbn; lra). destruct (Req_EM_T (INR 2) 0); [contradiction|]. cbn [bind map map2_result]. eexists (_ :: _ :: []). reflexivity.
Qed.

(** C58. Effective redshift. *)
Definition weights_ok (w : list R) (n : nat) : Prop := List.length w = n /\ Forall (fun x => 0 <= x) w /\ 0 < Rsum w.
Lemma average_between : forall w z a b, List.length w = List.length z -> Forall (fun x => 0 <= x) w -> Forall (fun x => a <= x <= b) z -> a * Rsum w <= Rsum (map (fun x => fst x * snd x) (combine w z)) <= b * Rsum w.
Proof.
  induction w as [|x w IH]; intros [|y z] a b L FW FZ; cbn in *; try lia; [lra|]. inversion FW; subst. inversion FZ; subst. unfold Rsum in *. specialize (IH z a b ltac:(lia) H2 H4). nra.
Qed.
Lemma get_z_ok : forall t d2z p weights pos s z, format_positions (if String.eqb t "rdz" then "rdd"%string else t) None (fun z => z) p = Ok pos -> sky_rows pos = Ok s -> (if String.eqb t "rdz" then z = map sky_dist s else map_result d2z (map sky_dist s) = Ok z) ->
  weights_ok (weights_or_one weights (List.length z)) (List.length z) ->
  get_z t d2z p weights = Ok (Rsum (map (fun x => fst x * snd x) (combine (weights_or_one weights (List.length z)) z)) / Rsum (weights_or_one weights (List.length z))).
Proof.
  intros t d2z p weights pos s z FP SR Z0 (WL & WP & WS). unfold get_z. rewrite FP. cbn [bind]. rewrite SR. cbn [bind]. assert (E : (if String.eqb t "rdz" then Ok (map sky_dist s) else map_result d2z (map sky_dist s)) = Ok z) by (destruct (String.eqb t "rdz"); subst; auto).
  rewrite E. cbn [bind]. rewrite WL, Nat.eqb_refl. cbn [negb]. unfold fdiv. destruct (Req_EM_T _ 0); [lra|auto].
Qed.
Lemma between_average : forall w z a b, weights_ok w (List.length z) -> Forall (fun x => a <= x <= b) z -> a <= Rsum (map (fun x => fst x * snd x) (combine w z)) / Rsum w <= b.
Proof.
  intros w z a b (WL & WP & WS) FZ. destruct (average_between w z a b WL WP FZ) as [H1 H2]. split.
  - apply Rmult_le_reg_r with (Rsum w); auto. unfold Rdiv. rewrite Rmult_assoc, Rinv_l by lra. lra.
  - apply Rmult_le_reg_r with (Rsum w); auto. unfold Rdiv. rewrite Rmult_assoc, Rinv_l by lra. lra.
Qed.
(** The effective redshift is the mean of redshifts with the weights, so it lies between the smallest and the largest one. From redshifts, and from Cartesian positions. *)
Theorem C58_redshifts : forall d2z d l weights a b, floating d = true -> Forall on_sky l -> Forall (fun s => a <= snd s <= b) l -> weights_ok (weights_or_one weights (List.length l)) (List.length l) ->
  exists z, get_z "rdz" d2z (as_sky d l) weights = Ok z /\ z * Rsum (weights_or_one weights (List.length l)) = Rsum (map (fun x => fst x * snd x) (combine (weights_or_one weights (List.length l)) (map snd l))) /\ a <= z <= b.
Proof.
  intros d2z d l weights a b F OS ZR WO. assert (SR : sky_rows (map (s2c (fun r => r)) l) = Ok (map (fun s => (snd s, fst (fst s), snd (fst s))) l)). { apply (sky_rows_ok (fun r => r)). eapply Forall_impl; [|exact OS]. intros [[ra dec] r]. cbn. tauto. }
  assert (E : map sky_dist (map (fun s : R * R * R => (snd s, fst (fst s), snd (fst s))) l) = map snd l) by (rewrite map_map; auto).
  assert (WO' : weights_ok (weights_or_one weights (List.length (map snd l))) (List.length (map snd l))) by (rewrite map_length; auto).
  eexists. split; [apply (get_z_ok "rdz" d2z _ weights _ _ (map snd l) (fmt_rdd None d (fun z => z) l F) SR); [cbn; auto|auto]|]. rewrite map_length. split; [destruct WO as (_ & _ & WS); field; lra|]. apply between_average; [rewrite map_length; auto|]. rewrite Forall_map. auto.
Qed.
Print Assumptions C58_redshifts.
Theorem C58_cartesian : forall d2z d l zs weights a b, floating d = true -> Forall2 (fun p z => p <> vzero /\ d2z (dist3 p vzero) = Ok z) l zs -> Forall (fun z => a <= z <= b) zs -> weights_ok (weights_or_one weights (List.length l)) (List.length l) ->
  exists z, get_z "pos" d2z (as_pos d l) weights = Ok z /\ get_z "xyz" d2z (as_xyz d l) weights = Ok z /\ z * Rsum (weights_or_one weights (List.length l)) = Rsum (map (fun x => fst x * snd x) (combine (weights_or_one weights (List.length l)) zs)) /\ a <= z <= b.
Proof.
  intros d2z d l zs weights a b F OS ZR WO. pose proof (f2_length _ _ _ OS) as LZ. assert (SR : exists s, sky_rows l = Ok s /\ map_result d2z (map sky_dist s) = Ok zs).
  { clear -OS. induction OS as [|p z l zs (P & Z0) _ (s & I1 & I2)]; [exists []; auto|]. destruct (c2s_ok true p P) as (x & ra & dec & E). destruct (c2s_dist _ _ _ _ E) as [X _]. exists ((x, ra, dec) :: s). unfold sky_rows in *. cbn [map_result map]. rewrite E. cbn [bind]. rewrite I1. split; auto. rewrite dist3_origin, <- X in Z0. change (sky_dist (x, ra, dec)) with x. rewrite Z0. cbn [bind]. rewrite I2. auto. }
  destruct SR as (s & S1 & S2). rewrite LZ in *. eexists. split; [apply (get_z_ok "pos" d2z _ weights _ _ zs (fmt_pos None d (fun z => z) l F) S1); auto|]. split; [apply (get_z_ok "xyz" d2z _ weights _ _ zs (fmt_xyz None d (fun z => z) l F) S1); auto|].
  split; [destruct WO as (_ & _ & WS); field; lra|]. apply between_average; auto.
Qed.
Print Assumptions C58_cartesian.
Example C58_case : Forall on_sky [(10, 20, 1 / 2); (350, -60, 3 / 2)] /\ weights_ok (weights_or_one (Some [1; 3]) 2) 2 /\ weights_ok (weights_or_one None 2) 2.
Proof. split; [repeat constructor; lra|]. split; (split; [auto|split; [repeat constructor; lra|cbn; lra] ]). Qed.

(** C59. The shot-noise factor [factor] is such that weights [factor * phi] instead of phi = b_phi fnl / T(k) give the expected change of the power spectrum at the pivot: with
    X the cross power and Y the power of the field of weights (both at the pivot), 2 X t + Y t^2 is the expected change for t = factor * phi. *)
Theorem C59_solves : forall b1 f sigma1 sigma2 bfnl tk pk sigma_d_2 shotnoise factor, shotnoise_factor b1 f sigma1 sigma2 bfnl tk pk sigma_d_2 shotnoise = Ok factor ->
  let kp := if Rlt_dec bfnl 0 then 8 / 1000 else 4 / 1000 in
  let s1 := exp (- (1 / 2) * kp ^ 2 * sigma1 ^ 2) in let s2 := exp (- (1 / 2) * kp ^ 2 * sigma2 ^ 2) in
  let mu := 6 / 10 in let phi := bfnl / tk kp in let t := factor * phi in
  let kaiser := b1 + f * mu ^ 2 in let smooth := b1 + (1 - s1) * f * mu ^ 2 in
  let cross := kaiser * smooth * s2 * pk kp + s2 * shotnoise * exp (- (1 / 2) * kp ^ 2 * mu ^ 2 * f ^ 2 * sigma_d_2) in
  let power := smooth ^ 2 * s2 ^ 2 * pk kp + s2 ^ 2 * shotnoise in
  2 * cross * t + power * t ^ 2 = 2 * phi * b1 * kaiser * pk kp + phi ^ 2 * b1 ^ 2 * pk kp.
Proof.
  intros b1 f sigma1 sigma2 bfnl tk pk sd sn factor H. unfold shotnoise_factor in H. cbv zeta. set (kp := if Rlt_dec bfnl 0 then 8 / 1000 else 4 / 1000) in *. clearbody kp. cbv zeta in H. unfold fdiv in H. destruct (Req_EM_T (tk kp) 0); [discriminate|]. cbn [bind] in H.
  destruct (Rlt_dec _ 0) as [|NN]; [discriminate|]. destruct (Req_EM_T (png_y _ _ _ _ _ _) 0) as [|YN]; [discriminate|]. cbn [bind] in H. destruct (Req_EM_T (bfnl / tk kp) 0) as [|PN]; [discriminate|]. apply ok_inj_p in H. unfold gaussian in *.
  set (X := png_x _ _ _ _ _ _ _ _) in *. set (Y := png_y _ _ _ _ _ _) in *. set (E := png_expected _ _ _ _) in *. set (phi := bfnl / tk kp) in *.
  assert (T : factor * phi = (- X + sqrt (X ^ 2 + Y * E)) / Y) by (subst factor; field; auto). rewrite T. assert (SQ : sqrt (X ^ 2 + Y * E) ^ 2 = X ^ 2 + Y * E) by (apply pow2_sqrt; lra). set (q := sqrt (X ^ 2 + Y * E)) in *.
  transitivity E; [|unfold E, png_expected; ring]. transitivity (2 * X * ((- X + q) / Y) + Y * ((- X + q) / Y) ^ 2); [unfold X, Y, png_x, png_y; ring|]. replace (2 * X * ((- X + q) / Y) + Y * ((- X + q) / Y) ^ 2) with ((q ^ 2 - X ^ 2) / Y) by (field; auto). rewrite SQ. field. auto.
Qed.
Print Assumptions C59_solves.
(** For a positive fnl there is a factor, and it is positive. *)
Lemma gaussian_le1 : forall k s, 0 < gaussian k s <= 1.
Proof.
  intros k s. unfold gaussian. split; [apply exp_pos|]. assert (H : - (1 / 2) * k ^ 2 * s ^ 2 <= 0). { assert (0 <= k ^ 2 * s ^ 2) by (apply Rmult_le_pos; apply pow2_ge_0). lra. }
  rewrite <- exp_0 at 2. destruct H as [H | H]; [left; apply exp_increasing; auto|right; rewrite H; auto].
Qed.
Theorem C59_positive : forall b1 f sigma1 sigma2 bfnl tk pk sigma_d_2 shotnoise, 0 < b1 -> 0 <= f -> 0 < bfnl -> 0 < tk (4 / 1000) -> 0 < pk (4 / 1000) -> 0 <= shotnoise ->
  exists factor, shotnoise_factor b1 f sigma1 sigma2 bfnl tk pk sigma_d_2 shotnoise = Ok factor /\ 0 < factor.
Proof.
  intros b1 f sigma1 sigma2 bfnl tk pk sd sn B F P T K N. unfold shotnoise_factor. destruct (Rlt_dec bfnl 0); [lra|]. cbv zeta. set (kp := 4 / 1000) in *. pose proof (gaussian_le1 kp sigma1) as G1. pose proof (gaussian_le1 kp sigma2) as G2. set (s1 := gaussian kp sigma1) in *. set (s2 := gaussian kp sigma2) in *.
  unfold fdiv. destruct (Req_EM_T (tk kp) 0); [lra|]. cbn [bind]. assert (PP : 0 < bfnl / tk kp) by (apply Rdiv_lt_0_compat; auto). set (phi := bfnl / tk kp) in *.
  assert (KA : 0 < b1 + f * (6 / 10) ^ 2) by nra. assert (SM : 0 < b1 + (1 - s1) * f * (6 / 10) ^ 2). { assert (0 <= (1 - s1) * f) by (apply Rmult_le_pos; lra). nra. }
  assert (XP : 0 < png_x b1 f s1 s2 (pk kp) sn kp sd). { unfold png_x. cbv zeta. apply Rplus_lt_le_0_compat; [apply Rmult_lt_0_compat; auto; apply Rmult_lt_0_compat; [|lra]; apply Rmult_lt_0_compat; auto|]. apply Rmult_le_pos; [apply Rmult_le_pos; lra|left; apply exp_pos]. }
  assert (YP : 0 < png_y b1 f s1 s2 (pk kp) sn). { unfold png_y. cbv zeta. apply Rplus_lt_le_0_compat; [apply Rmult_lt_0_compat; auto; apply Rmult_lt_0_compat; apply pow_lt; [auto|lra]|]. apply Rmult_le_pos; [apply pow2_ge_0|auto]. }
  assert (EP : 0 < png_expected b1 f (pk kp) phi). { unfold png_expected. cbv zeta. apply Rplus_lt_0_compat; [apply Rmult_lt_0_compat; auto; apply Rmult_lt_0_compat; auto; apply Rmult_lt_0_compat; auto; lra|apply Rmult_lt_0_compat; auto; apply Rmult_lt_0_compat; apply pow_lt; auto]. }
  set (X := png_x _ _ _ _ _ _ _ _) in *. set (Y := png_y _ _ _ _ _ _) in *. set (E := png_expected _ _ _ _) in *. assert (YE : 0 < Y * E) by (apply Rmult_lt_0_compat; auto). destruct (Rlt_dec (X ^ 2 + Y * E) 0); [nra|]. destruct (Req_EM_T Y 0); [lra|]. cbn [bind]. destruct (Req_EM_T phi 0); [lra|].
  eexists. split; [reflexivity|]. apply Rdiv_lt_0_compat; auto. apply Rdiv_lt_0_compat; auto. assert (sqrt (X ^ 2) < sqrt (X ^ 2 + Y * E)) by (apply sqrt_lt_1; nra). rewrite sqrt_pow2 in H by lra. lra.
Qed.
Print Assumptions C59_positive.
Example C59_case : 0 < 2 /\ 0 <= 1 / 2 /\ 0 < get_bfnl 2 10 /\ 0 < 20000 /\ 0 <= 1000.
Proof. unfold get_bfnl. lra. Qed.
