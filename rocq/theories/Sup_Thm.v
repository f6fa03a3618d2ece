(** Property C98: fields and distortions superpose. Vocabulary in Sup_Spec.v. *)
Require Import Reals Lra Lia ZArith String List Bool.
From Verif Require Import Base Vec3 Isometry_Model Isometry_Spec Isometry_Proof Sky_Model Cutsky_Model Box_Model Rsd_Model Rsd_Spec Rsd_Proof Rsd_Thm Undo_Spec Undo_Proof Undo_Thm Mock_Model Mock_Spec Mock_Thm2 Mesh_Model Mesh_Spec
  Sup_Spec Sup_Proof.
Import ListNotations.
Open Scope R_scope.

(** Mocks made of combined seeds are superposed, or cannot be made. *)
Theorem C98_new : forall a b freq box n center p p' p'' los w w' w'' inv,
  (forall u, combined_seeds a b (p, u, w, inv) (p', u, w', inv) (p'', u, w'', inv)) ->
  all_or_error (superposed a b) (mock_new freq box n center p los w inv) (mock_new freq box n center p' los w' inv) (mock_new freq box n center p'' los w'' inv).
Proof.
  intros a b freq box n center p p' p'' los w w' w'' inv S. unfold mock_new. apply (bind3 (fun x y z => y = x /\ z = x)).
  - destruct los as [ax|]; [destruct (get_los ax)|]; cbn; auto.
  - intros u v v' [-> ->]. apply (bind3 (combined_modes a b)); [apply complex_comb; auto|]. intros f g h C. cbn [all_or_error]. unfold superposed; cbn -[combined_seeds]. repeat (split; [solve [auto]|]). auto.
Qed.
Print Assumptions C98_new.
(** In particular for the same power spectrum and noises that combine, and for one noise and a power spectrum multiplied by t^2. *)
Theorem C98_noises : forall a b freq box n center p los w w' w'' inv, combined_modes a b w w' w'' ->
  all_or_error (superposed a b) (mock_new freq box n center p los w inv) (mock_new freq box n center p los w' inv) (mock_new freq box n center p los w'' inv).
Proof.
  intros a b freq box n center p los w w' w'' inv C. apply C98_new. intros u. cbn. repeat (split; [solve [auto]|]). exists p, 1, 1, 1. repeat (split; [lra|]). split; [intros; repeat split; ring|].
  intros k. destruct (C k) as [C1 C2]. cbn. rewrite C1, C2. split; ring.
Qed.
Print Assumptions C98_noises.
Theorem C98_amplitude : forall t freq box n center p los w inv, 0 < t ->
  all_or_error (superposed t 0) (mock_new freq box n center p los w inv) (mock_new freq box n center p los w inv) (mock_new freq box n center (fun k mu => t ^ 2 * p k mu) los w inv).
Proof.
  intros t freq box n center p los w inv T. apply C98_new. intros u. cbn. repeat (split; [solve [auto]|]). exists p, 1, 1, t. repeat (split; [lra|]). split; [intros; repeat split; ring|]. intros k. cbn. split; ring.
Qed.
Print Assumptions C98_amplitude.
Theorem C98_from_field : forall a b box n center, (forall f g h, combined_modes a b f g h ->
    superposed a b (from_complex_delta_field box n (inl f) center) (from_complex_delta_field box n (inl g) center) (from_complex_delta_field box n (inl h) center)) /\
  (forall f g h, combined a b f g h -> superposed a b (from_complex_delta_field box n (inr f) center) (from_complex_delta_field box n (inr g) center) (from_complex_delta_field box n (inr h) center)).
Proof.
  intros a b box n center. split; intros f g h C; unfold superposed; cbn -[combined_modes]; repeat (split; [solve [auto]|]); auto. split; [apply r2c_comb; auto|]. auto.
Qed.
Print Assumptions C98_from_field.

(** Superposed mocks stay superposed whatever is called on them, and the calls raise for all three or for none. *)
Theorem C98_histories : forall a b freq neg pm c m m' m'' l l' l'', superposed a b m m' m'' -> histories a b l l' l'' ->
  superposed a b (after freq neg pm c m l) (after freq neg pm c m' l') (after freq neg pm c m'' l'') /\
  snd (run freq neg pm c m' l') = snd (run freq neg pm c m l) /\ snd (run freq neg pm c m'' l'') = snd (run freq neg pm c m l).
Proof. intros a b freq neg pm c m m' m'' l l' l'' S H. apply run_comb; auto. Qed.
Print Assumptions C98_histories.
(** What is read of them at positions combines. *)
Theorem C98_readout : forall a b freq pm c m m' m'' pos x x' x'' r comp, superposed a b m m' m'' -> fields_of a b x x' x'' ->
  all_or_error (combined_rows a b) (mock_readout c freq pm m pos x r comp) (mock_readout c freq pm m' pos x' r comp) (mock_readout c freq pm m'' pos x'' r comp).
Proof. intros. destruct c; [apply readout_comb|apply lagrangian_readout_comb]; auto. Qed.
Print Assumptions C98_readout.
(** A case: a field, twice it, and their sum, with a bias, distortions from the observer and white noise. *)
Example C98_case : let f k := Cx (INR (ix k)) 0 in let g k := Cx (2 * INR (ix k)) 0 in let h k := Cx (3 * INR (ix k)) 0 in
  let m f := from_complex_delta_field (V 1 1 1) (I 4 4 4) (inl f) (Scalar 100) in let l w := [SetReal (Some (BNum 2)) false; SetRsd (FFun (fun r => r)) None; SetSelection (inl 2) 0; SetWhiteNoise w] in
  superposed 1 1 (m f) (m g) (m h) /\ histories 1 1 (l (fun _ => 1)) (l (fun _ => 2)) (l (fun _ => 3)) /\ fields_of 1 1 (Named "nbar*delta") (Named "nbar*delta") (Named "nbar*delta").
Proof.
  intros f g h m l. split; [apply C98_from_field; intros k; unfold f, g, h; cbn; split; ring|]. split; [|constructor].
  repeat (apply one_more; [try (constructor; discriminate)|]); try apply no_call; constructor; try discriminate. intros x. ring.
Qed.

(** The selection function on the mesh is linear in the one given. *)
Theorem C98_selection : forall a b freq neg box center n f g h i, (forall d ra dec, h d ra dec = a * f d ra dec + b * g d ra dec) ->
  all_or_error (combined a b) (set_selection freq neg box center n f i) (set_selection freq neg box center n g i) (set_selection freq neg box center n h i).
Proof. exact selection_comb. Qed.
Print Assumptions C98_selection.
Example C98_case_selection : forall d ra dec : R, d + 2 * ra = 1 * d + 2 * ra /\ d + dec = 1 * d + 1 * dec.
Proof. intros. split; ring. Qed.

(** Distortions of the density add up: factors that are numbers, or functions of the distance, or one of each. *)
Theorem C98_rsd_fields : forall freq neg pm m f g h los, add_up f g h ->
  same_mock (after freq neg pm Eulerian m [SetRsd h los]) (after freq neg pm Eulerian m [SetRsd f los; SetRsd g los]) /\
  exists r, snd (run freq neg pm Eulerian m [SetRsd h los]) = [r] /\ snd (run freq neg pm Eulerian m [SetRsd f los; SetRsd g los]) = [r; r].
Proof.
  intros freq neg pm m f g h los A. unfold after. cbn [run step]. unfold setting.
  assert (Z : same_mock m m) by (unfold same_mock; repeat (split; [solve [auto]|]); destruct (m_delta_r m); cbn; auto).
  destruct (m_delta_r m) as [d|] eqn:D; cbn [attribute bind].
  2:{ rewrite D. cbn [attribute bind fst snd]. split; auto. exists (Err AttributeError). auto. }
  pose proof (euler_add freq neg (m_box m) (m_center m) (m_n m) (m_delta_k m) d f g h los A) as X. destruct (eulerian_set_rsd freq neg (m_box m) (m_center m) (m_n m) (m_delta_k m) d f los) as [d1|e] eqn:E.
  - destruct X as (d2 & d3 & E2 & E3 & Y). rewrite E3. cbn [set_delta_r m_delta_r m_box m_center m_n m_delta_k attribute bind]. rewrite E2. cbn [fst snd]. split.
    + unfold same_mock; cbn. repeat (split; [solve [auto]|]). intros x. rewrite Y. auto.
    + exists (Ok tt). auto.
  - destruct X as [X1 X2]. rewrite X1, D. cbn [attribute bind]. rewrite X2. cbn [fst snd]. split; auto. exists (Err e). auto.
Qed.
Print Assumptions C98_rsd_fields.
Example C98_case_rsd : add_up (FNum 2) (FFun (fun r => r)) (FFun (fun r => 2 + r)) /\ add_up (FNum 2) (FNum (-2)) (FNum 0).
Proof. split; intros r; cbn; lra. Qed.

(** Distortions of positions. *)
Lemma rows_add : forall (R1 R2 R3 : vec -> vec -> vec -> Prop) pos vel out out2 out3, length vel = length pos -> row_by_row R1 pos vel out -> row_by_row R2 out vel out2 -> row_by_row R3 pos vel out3 ->
  (forall p v q r s, In p pos -> In q out -> R1 p v q -> R2 q v r -> R3 p v s -> r = s) -> out2 = out3.
Proof.
  intros R1 R2 R3 pos vel out out2 out3 L [L1 H1] [L2 H2] [L3 H3] K. apply nth_ext. intros i. destruct (nth_error pos i) as [p|] eqn:P.
  - assert (I : (i < length pos)%nat) by (apply nth_error_Some; congruence). destruct (nth_error out2 i) as [r|] eqn:R; [|apply nth_error_None in R; lia]. destruct (nth_error out i) as [q|] eqn:Q; [|apply nth_error_None in Q; lia].
    destruct (nth_error vel i) as [v|] eqn:E; [|apply nth_error_None in E; lia]. destruct (nth_error out3 i) as [s|] eqn:S; [|apply nth_error_None in S; lia]. f_equal. apply (K p v q r s); eauto using nth_error_In.
  - apply nth_error_None in P. assert (A : nth_error out2 i = None) by (apply nth_error_None; lia). assert (B : nth_error out3 i = None) by (apply nth_error_None; lia). congruence.
Qed.
Theorem C98_rsd_catalogs_fixed : forall c pos vel los u f g, position c = Ok pos -> velocity c = Ok vel -> length vel = length pos -> pc_position c <> pc_velocity c -> los_means los u ->
  exists out, rsd_position c (FNum f) (Some los) = Ok out /\ rsd_position (with_positions c out) (FNum g) (Some los) = rsd_position c (FNum (f + g)) (Some los).
Proof.
  intros c pos vel los u f g P W L N M. destruct (C20_fixed_line_of_sight c pos vel los u f P W L M) as (out & E & RR). exists out. split; auto.
  destruct (C20_fixed_line_of_sight (with_positions c out) out vel los u g) as (out2 & E2 & RR2); [apply with_position|rewrite with_velocity; auto|destruct RR; congruence|auto|]. rewrite E2.
  destruct (C20_fixed_line_of_sight c pos vel los u (f + g) P W L M) as (out3 & E3 & RR3). rewrite E3. f_equal.
  apply (rows_add _ _ _ pos vel out out2 out3 L RR RR2 RR3). intros p v q r s _ _ [_ ->] [_ ->] [_ ->]. destruct p, u; unfold vadd, vscale, vdot; cbn. f_equal; ring.
Qed.
Print Assumptions C98_rsd_catalogs_fixed.
Lemma unit_of : forall k p u, 0 < k -> p = vscale k u -> vscale (/ k) p = u.
Proof. intros k p [a b c] K ->. unfold vscale; cbn. f_equal; field; lra. Qed.
(** From the observer, unless an object is put there, where its line of sight is not defined. *)
Theorem C98_rsd_catalogs_local : forall c pos vel f g, position c = Ok pos -> velocity c = Ok vel -> length vel = length pos -> pc_position c <> pc_velocity c -> ~ In vzero pos ->
  exists out, rsd_position c (FNum f) None = Ok out /\ (~ In vzero out -> rsd_position (with_positions c out) (FNum g) None = rsd_position c (FNum (f + g)) None) /\
    (In vzero out -> rsd_position (with_positions c out) (FNum g) None = Err ZeroDivision).
Proof.
  intros c pos vel f g P W L N Z. assert (Z' : forall p, In p pos -> p <> vzero) by (intros p I ->; auto). destruct (C20_local_line_of_sight c pos vel f P W L Z') as (out & E & RR). exists out. split; auto. split.
  - intros ZO. destruct (C20_local_line_of_sight (with_positions c out) out vel g) as (out2 & E2 & RR2); [apply with_position|rewrite with_velocity; auto|destruct RR; congruence|intros p I ->; auto|]. rewrite E2.
    destruct (C20_local_line_of_sight c pos vel (f + g) P W L Z') as (out3 & E3 & RR3). rewrite E3. f_equal.
    apply (rows_add _ _ _ pos vel out out2 out3 L RR RR2 RR3). intros p v q r s I J (u & D & [U Q]) (w & D' & [U' ->]) (u3 & D3 & [U3 ->]).
    destruct (direction_parallel p u D U) as (k & K & PK & NK). destruct (direction_parallel p u3 D3 U3) as (k3 & K3 & PK3 & NK3). assert (KK : k3 = k) by congruence. rewrite KK in *. clear NK3 KK.
    pose proof (unit_of k p u K PK) as X1. pose proof (unit_of k p u3 K PK3) as X3. assert (u3 = u) by (rewrite X1 in X3; auto). subst u3.
    destruct (direction_parallel q w D' U') as (k' & K' & QK & _).
    set (s0 := f * vdot v u) in *. assert (QS : q = vscale (k + s0) u) by (rewrite Q; rewrite PK at 1; destruct u; unfold vadd, vscale; cbn; f_equal; ring).
    assert (SQ : (k + s0) ^ 2 = k' ^ 2).
    { assert (HQ : vdot q q = k' ^ 2) by (rewrite QK; replace (vdot (vscale k' w) (vscale k' w)) with (k' ^ 2 * vdot w w) by (destruct w; unfold vdot, vscale; cbn; ring); rewrite U'; ring).
      rewrite QS in HQ. replace (vdot (vscale (k + s0) u) (vscale (k + s0) u)) with ((k + s0) ^ 2 * vdot u u) in HQ by (destruct u; unfold vdot, vscale; cbn; ring). rewrite U in HQ. lra. }
    assert (WU : exists e, w = vscale e u /\ e ^ 2 = 1).
    { exists ((k + s0) / k'). split; [|replace (((k + s0) / k') ^ 2) with ((k + s0) ^ 2 / k' ^ 2) by (field; lra); rewrite SQ; field; lra]. assert (HW : w = vscale (/ k') q) by (rewrite QK; destruct w; unfold vscale; cbn; f_equal; field; lra). rewrite HW, QS. destruct u; unfold vscale; cbn. f_equal; field; lra. }
    destruct WU as (e & -> & E4). rewrite Q. assert (X : vdot v (vscale e u) = e * vdot v u) by (destruct u; unfold vdot, vscale; cbn; ring). rewrite X.
    replace (vscale (g * (e * vdot v u)) (vscale e u)) with (vscale ((e ^ 2) * (g * vdot v u)) u) by (destruct u; unfold vscale; cbn; f_equal; ring).
    rewrite E4, X1. unfold s0. set (dv := vdot v u). clearbody dv. clear. destruct p as [p1 p2 p3], u as [u1 u2 u3]; unfold vadd, vscale; cbn. f_equal; ring.
  - intros ZO. apply (C20_observer_position _ out vel); auto; [apply with_position|rewrite with_velocity; auto].
Qed.
Print Assumptions C98_rsd_catalogs_local.
(** Objects of mocks: two calls are one, along an axis, or from the observer unless an object is put there. *)
Theorem C98_rsd_objects : forall freq neg pm m pos disps f g los, m_position m = Some pos -> m_disps m = Some disps -> length disps = length pos ->
  (match los with Some a => exists u, los_means a u | None => ~ In vzero pos /\ forall q, m_position (after freq neg pm Lagrangian m [SetRsd (FNum f) None]) = Some q -> ~ In vzero q end) ->
  run freq neg pm Lagrangian m [SetRsd (FNum f) los; SetRsd (FNum g) los] = (after freq neg pm Lagrangian m [SetRsd (FNum (f + g)) los], [Ok tt; Ok tt]) /\
  snd (run freq neg pm Lagrangian m [SetRsd (FNum (f + g)) los]) = [Ok tt].
Proof.
  intros freq neg pm m pos disps f g los P D L M. unfold after in *. cbn [run step] in *. unfold setting in *. rewrite P, D in *. cbn [attribute bind] in *.
  assert (K : exists out out2, lagrangian_set_rsd pos disps (FNum f) los = Ok out /\ lagrangian_set_rsd out disps (FNum g) los = Ok out2 /\ lagrangian_set_rsd pos disps (FNum (f + g)) los = Ok out2).
  { assert (W : forall out h los, rsd_position (with_positions (pv_cat pos disps) out) h los = lagrangian_set_rsd out disps h los) by (intros; rewrite lagrangian_as_box; reflexivity).
    destruct los as [a|].
    - destruct M as [u U]. destruct (C98_rsd_catalogs_fixed (pv_cat pos disps) pos disps a u f g eq_refl eq_refl L ltac:(discriminate) U) as (out & E1 & E2). rewrite W in E2. rewrite <- lagrangian_as_box in E1, E2.
      exists out. destruct (C41_rsd_fixed pos disps (f + g) a u L U) as (out2 & E3 & _). exists out2. split; auto. split; congruence.
    - destruct M as [Z ZO]. destruct (C98_rsd_catalogs_local (pv_cat pos disps) pos disps f g eq_refl eq_refl L ltac:(discriminate) Z) as (out & E1 & E2 & _). rewrite W in E2. rewrite <- lagrangian_as_box in E1, E2.
      rewrite E1 in ZO. cbn in ZO. specialize (E2 (ZO out eq_refl)). exists out. destruct (C41_rsd_local pos disps (f + g) L) as (out2 & E3 & _); [intros p I ->; auto|]. exists out2. split; auto. split; congruence. }
  destruct K as (out & out2 & E1 & E2 & E3). rewrite E1, E3. cbn [set_position m_position m_disps attribute bind]. rewrite D. cbn [attribute bind]. rewrite E2. cbn. auto.
Qed.
Print Assumptions C98_rsd_objects.
Example C98_case_objects : length [V 1 0 0; V 0 2 0] = length [V 1 1 1; V 0 3 4] /\ los_means (AxStr "z") (V 0 0 1) /\ ~ In vzero [V 1 1 1; V 0 3 4] /\ position (pv_cat [V 1 1 1] [V 1 0 0]) = Ok [V 1 1 1] /\ pc_position (pv_cat [] []) <> pc_velocity (pv_cat [] []).
Proof. repeat split; try constructor; try discriminate. intros [E|[E|[]]]; apply (f_equal vz) in E; cbn in E; lra. Qed.

(** What does not superpose. Biases that are functions, *)
Theorem C98_callable_bias_refuted : forall freq neg pm c, exists m m' m'' d d' d'', superposed 1 1 m m' m'' /\ let l := [SetReal (Some (BFun (fun d _ => d ^ 2))) false] in
  m_delta_r (after freq neg pm c m l) = Some d /\ m_delta_r (after freq neg pm c m' l) = Some d' /\ m_delta_r (after freq neg pm c m'' l) = Some d'' /\ ~ combined 1 1 d d' d''.
Proof.
  intros. exists (from_complex_delta_field (V 1 1 1) (I 1 1 1) (inl (fun _ => Cx 1 0)) (Scalar 0)), (from_complex_delta_field (V 1 1 1) (I 1 1 1) (inl (fun _ => Cx 1 0)) (Scalar 0)), (from_complex_delta_field (V 1 1 1) (I 1 1 1) (inl (fun _ => Cx 2 0)) (Scalar 0)).
  eexists. eexists. eexists. split; [apply C98_from_field; intros k; cbn; split; ring|]. destruct c; cbn; (split; [reflexivity|]; split; [reflexivity|]; split; [reflexivity|]);
    intros H; specialize (H (I 0 0 0)); unfold c2r, Rsum in H; cbn in H; unfold phase in H; cbn in H; replace (2 * PI * (0 * 0 / 1 + 0 * 0 / 1 + 0 * 0 / 1)) with 0 in H by field; rewrite cos_0, sin_0 in H; lra.
Qed.
Print Assumptions C98_callable_bias_refuted.
(** ... the lognormal transform, *)
Theorem C98_lognormal_refuted : forall freq neg pm c, exists m m' m'' d d' d'', superposed 1 1 m m' m'' /\ let l := [SetReal None true] in
  m_delta_r (after freq neg pm c m l) = Some d /\ m_delta_r (after freq neg pm c m' l) = Some d' /\ m_delta_r (after freq neg pm c m'' l) = Some d'' /\ ~ combined 1 1 d d' d''.
Proof.
  intros freq neg pm c. pose (w t := from_complex_delta_field (V 1 1 1) (I 2 1 1) (inl (fun k => Cx (if Nat.eqb (ix k) 1 then t else 0) 0)) (Scalar 0)).
  assert (F : forall t x, c2r (I 2 1 1) (fun k => Cx (if Nat.eqb (ix k) 1 then t else 0) 0) x = t * cos (phase (I 2 1 1) (I 1 0 0) x)) by (intros; unfold c2r, Rsum; cbn; ring).
  assert (P0 : cos (phase (I 2 1 1) (I 1 0 0) (I 0 0 0)) = 1) by (unfold phase; cbn; replace (2 * PI * (1 * 0 / (1 + 1) + 0 * 0 / 1 + 0 * 0 / 1)) with 0 by field; apply cos_0).
  assert (P1 : cos (phase (I 2 1 1) (I 1 0 0) (I 1 0 0)) = -1) by (unfold phase; cbn; replace (2 * PI * (1 * 1 / (1 + 1) + 0 * 0 / 1 + 0 * 0 / 1)) with PI by field; apply cos_PI).
  assert (A : forall t, exists d, m_delta_r (after freq neg pm c (w t) [SetReal None true]) = Some d /\ d (I 0 0 0) = exp t / ((exp t + exp (- t)) / 2) - 1).
  { intros t. eexists. split.
    - unfold after; cbn [run step]. unfold set_real_delta_field. cbn [m_n m_delta_k w from_complex_delta_field m_box m_center]. unfold mean, fdiv.
      match goal with |- context [Req_EM_T ?s 0] => destruct (Req_EM_T s 0) as [Z|Z] end; [unfold size in Z; cbn in Z; lra|]. cbn [bind setting]. destruct c; reflexivity.
    - cbv beta. rewrite F, P0. unfold size. cbn [cells seq flat_map map app ix iy iz]. unfold Rsum; cbn [fold_right map app INR]. rewrite !F, P0, P1. f_equal. f_equal; [f_equal; ring|]. replace (t * 1) with t by ring. replace (t * -1) with (- t) by ring. field. }
  destruct (A 1) as (d & D & V1). destruct (A 2) as (d'' & D'' & V2). exists (w 1), (w 1), (w 2), d, d, d''. split; [apply C98_from_field; intros k; cbn; destruct (Nat.eqb (ix k) 1); split; ring|].
  cbv zeta. repeat (split; [solve [auto]|]). intros H. specialize (H (I 0 0 0)). rewrite V1, V2 in H.
  set (e := exp 1) in *. assert (E2 : exp 2 = e * e) by (unfold e; rewrite <- exp_plus; f_equal; ring). assert (Em : exp (- (1)) = / e) by (unfold e; apply exp_Ropp). assert (Em2 : exp (- (2)) = / (e * e)) by (rewrite <- E2; apply exp_Ropp).
  rewrite E2, Em, Em2 in H. assert (G : 1 < e) by (unfold e; pose proof (exp_ineq1 1); lra). 
  assert (X : e * e / ((e * e + / (e * e)) / 2) - 1 = (e ^ 4 - 1) / (e ^ 4 + 1)) by (field; repeat split; nra).
  assert (Y : e / ((e + / e) / 2) - 1 = (e ^ 2 - 1) / (e ^ 2 + 1)) by (field; repeat split; nra).
  rewrite X, Y in H. set (y := e ^ 2) in *. replace (e ^ 4) with (y ^ 2) in H by (unfold y; ring). assert (1 < y) by (unfold y; nra).
  assert (H' : (y ^ 2 - 1) * (y + 1) = 2 * (y - 1) * (y ^ 2 + 1)).
  { replace ((y ^ 2 - 1) * (y + 1)) with ((y ^ 2 - 1) / (y ^ 2 + 1) * ((y ^ 2 + 1) * (y + 1))) by (field; nra). rewrite H. field; repeat split; nra. }
  assert ((y - 1) * (y - 1) * (y - 1) = 0) by nra. assert (0 < (y - 1) * (y - 1)) by nra. nra.
Qed.
Print Assumptions C98_lognormal_refuted.
(** ... and densities: the sum of two mocks does not have the density nbar (1 + delta) added. *)
Theorem C98_density_refuted : forall freq, exists pm m m' m'', superposed 1 1 m m' m'' /\ ~ all_or_error (combined_rows 1 1) (readout freq pm m [V 0 0 0] (Named "nbar*(1+delta)") "cic" false)
  (readout freq pm m' [V 0 0 0] (Named "nbar*(1+delta)") "cic" false) (readout freq pm m'' [V 0 0 0] (Named "nbar*(1+delta)") "cic" false).
Proof.
  intros freq. exists (PMesh (fun _ => true) (fun _ _ _ _ => 1) [[I 0 0 0]] (fun _ _ _ => true)).
  pose (m := Mock (V 1 1 1) (I 1 1 1) (V 0 0 0) None (fun _ => Cx 0 0) (Some (fun _ => 0)) (Some (Number 1)) None None None None). exists m, m, m. split.
  - unfold superposed; cbn -[combined_modes combined]. repeat (split; [solve [auto]|]). split; [intros k; cbn; split; ring|]. split; [intros x; ring|auto].
  - cbn. intros (_ & _ & H). specialize (H 0%nat _ _ _ eq_refl eq_refl eq_refl). unfold readout_at, Rsum in H. cbn in H. lra.
Qed.
Print Assumptions C98_density_refuted.
