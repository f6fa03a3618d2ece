(** Property C65: sequences of calls on mocks, and what is exported. Vocabulary in Mesh_Spec.v. *)
Require Import Reals ZArith String Ascii List Bool Lra Lia Permutation.
From Verif Require Import Base Vec3 Isometry_Model Isometry_Spec Box_Model Box_Spec Rsd_Model Rsd_Spec Density_Proof Mock_Model Mock_Spec Fourier_Proof Mock_Thm Mock_Thm2 Mesh_Model Mesh_Spec Mesh_Thm Mesh_Thm2.
Import ListNotations.
Open Scope R_scope.

Section Calls.
Variables (freq : nat -> nat -> BinNums.Z) (neg : nat -> nat -> bool) (pm : pmesh) (c : class).
Notation step := (step freq neg pm c).
Notation run := (run freq neg pm c).
Notation after := (after freq neg pm c).
Lemma after_nil : forall m, after m [] = m. Proof. auto. Qed.
Lemma after_cons : forall m o l, after m (o :: l) = after (fst (step m o)) l.
Proof. intros m o l. unfold Mesh_Spec.after. cbn [Mesh_Model.run]. destruct (step m o) as [m' r]. cbn [fst]. destruct (run m' l). auto. Qed.
Lemma after_app : forall l l' m, after m (l ++ l') = after (after m l) l'.
Proof. induction l as [|o l IH]; intros l' m; [auto|]. cbn [app]. rewrite !after_cons. apply IH. Qed.
(** Attributes change only by the calls that set them. *)
Lemma step_real : forall m o, ~ is_real o -> m_delta_r m = None -> m_delta_r (fst (step m o)) = None.
Proof.
  intros m o H E. destruct o as [|bias lg|nb i|noise|f los|po un rs co|ce]; cbn [Mesh_Model.step is_real] in *; try (exfalso; tauto).
  - destruct (m_seed m) as [[[[pw lo] no] iv]|]; [|auto]. destruct (set_complex_delta_field _ _ _ _ _ _ _); auto.
  - destruct (select_density _ _ _ _ _); auto.
  - unfold white_noise. rewrite E. auto.
  - destruct c; [rewrite E; auto|]. destruct (attribute (m_position m)); auto. cbn [bind]. destruct (attribute (m_disps m)); auto. cbn [bind]. destruct (lagrangian_set_rsd _ _ _ _); auto.
  - rewrite E. auto.
  - auto.
Qed.
Lemma step_nbar : forall m o, ~ is_selection o -> m_nbar m = None -> m_nbar (fst (step m o)) = None.
Proof.
  intros m o H E. destruct o as [|bias lg|nb i|noise|f los|po un rs co|ce]; cbn [Mesh_Model.step is_selection] in *; try (exfalso; tauto).
  - destruct (m_seed m) as [[[[pw lo] no] iv]|]; [|auto]. destruct (set_complex_delta_field _ _ _ _ _ _ _); auto.
  - destruct (set_real_delta_field _ _ _ _ _ _ _); auto. destruct c; auto.
  - destruct (white_noise m noise); auto.
  - destruct c; [destruct (attribute (m_delta_r m)); auto; cbn [bind]; destruct (eulerian_set_rsd _ _ _ _ _ _ _ _ _); auto|]. destruct (attribute (m_position m)); auto. cbn [bind]. destruct (attribute (m_disps m)); auto. cbn [bind]. destruct (lagrangian_set_rsd _ _ _ _); auto.
  - destruct (m_delta_r m); rewrite ?E; auto.
  - auto.
Qed.
Lemma step_position : forall m o, ~ is_poisson o -> m_position m = None -> m_position (fst (step m o)) = None.
Proof.
  intros m o H E. destruct o as [|bias lg|nb i|noise|f los|po un rs co|ce]; cbn [Mesh_Model.step is_poisson] in *; try (exfalso; tauto).
  - destruct (m_seed m) as [[[[pw lo] no] iv]|]; [|auto]. destruct (set_complex_delta_field _ _ _ _ _ _ _); auto.
  - destruct (set_real_delta_field _ _ _ _ _ _ _); auto. destruct c; auto.
  - destruct (select_density _ _ _ _ _); auto.
  - destruct (white_noise m noise); auto.
  - destruct c; [destruct (attribute (m_delta_r m)); auto; cbn [bind]; destruct (eulerian_set_rsd _ _ _ _ _ _ _ _ _); auto|]. rewrite E. auto.
  - auto.
Qed.
Lemma kept_none : forall {A} (get : mock -> option A) (kind : op -> Prop), (forall m o, ~ kind o -> get m = None -> get (fst (step m o)) = None) ->
  forall l m, (forall o, In o l -> ~ kind o) -> get m = None -> get (after m l) = None.
Proof. intros A get kind H. induction l as [|o l IH]; intros m K E; auto. rewrite after_cons. apply IH; [intros; apply K; right; auto|]. apply H; auto. apply K. left. auto. Qed.
(** Size of the box and of the mesh never change. *)
Lemma step_box : forall m o, m_box (fst (step m o)) = m_box m /\ m_n (fst (step m o)) = m_n m.
Proof.
  intros m o. destruct o as [|bias lg|nb i|noise|f los|po un rs co|ce]; cbn [Mesh_Model.step].
  - destruct (m_seed m) as [[[[pw lo] no] iv]|]; [|auto]. destruct (set_complex_delta_field _ _ _ _ _ _ _); auto.
  - destruct (set_real_delta_field _ _ _ _ _ _ _); auto. destruct c; auto.
  - destruct (select_density _ _ _ _ _); auto.
  - destruct (white_noise m noise); auto.
  - destruct c; [destruct (attribute (m_delta_r m)); auto; cbn [bind]; destruct (eulerian_set_rsd _ _ _ _ _ _ _ _ _); auto|]. destruct (attribute (m_position m)); auto. cbn [bind]. destruct (attribute (m_disps m)); auto. cbn [bind]. destruct (lagrangian_set_rsd _ _ _ _); auto.
  - destruct (do d <- attribute (m_delta_r m); _) as [p|]; auto. destruct c; auto. unfold setting. destruct (do d <- attribute (m_disp _); _); auto.
  - auto.
Qed.
Lemma after_box : forall l m, m_box (after m l) = m_box m /\ m_n (after m l) = m_n m.
Proof. induction l as [|o l IH]; intros m; auto. rewrite after_cons. destruct (IH (fst (step m o))) as [-> ->]. apply step_box. Qed.
(** Position, displacements and center are kept by the other calls. *)
Lemma step_kept : forall m o, ~ moves c o -> m_position (fst (step m o)) = m_position m /\ m_disps (fst (step m o)) = m_disps m /\ m_center (fst (step m o)) = m_center m.
Proof.
  intros m o H. destruct o as [|bias lg|nb i|noise|f los|po un rs co|ce]; cbn [Mesh_Model.step moves] in *; try (exfalso; tauto).
  - destruct (m_seed m) as [[[[pw lo] no] iv]|]; [|auto]. destruct (set_complex_delta_field _ _ _ _ _ _ _); auto.
  - destruct (set_real_delta_field _ _ _ _ _ _ _); auto. destruct c; auto.
  - destruct (select_density _ _ _ _ _); auto.
  - destruct (white_noise m noise); auto.
  - destruct c; [|tauto]. destruct (attribute (m_delta_r m)); auto; cbn [bind]. destruct (eulerian_set_rsd _ _ _ _ _ _ _ _ _); auto.
Qed.

(** C65. Steps done out of order raise, and leave the mock as it was: whatever the calls before, and whatever they answered. *)
Theorem C65_no_field : forall m l o, untouched m -> (forall x, In x l -> ~ is_real x) ->
  is_poisson o \/ (exists noise, o = SetWhiteNoise noise) \/ (c = Eulerian /\ exists f los, o = SetRsd f los) -> step (after m l) o = (after m l, Err AttributeError).
Proof.
  intros m l o (U & _) NR H. pose proof (kept_none m_delta_r is_real step_real l m NR U) as E. destruct H as [H|[[noise ->]|[C (f & los & ->)]]].
  - destruct o; try contradiction. cbn [Mesh_Model.step]. rewrite E. auto.
  - cbn [Mesh_Model.step]. unfold white_noise. rewrite E. auto.
  - revert E. generalize (after m l). intros m' E. cbn [Mesh_Model.step]. rewrite C, E. auto.
Qed.
Theorem C65_no_density : forall m l o, untouched m -> (forall x, In x l -> ~ is_selection x) -> is_poisson o \/ (exists noise, o = SetWhiteNoise noise) ->
  step (after m l) o = (after m l, Err AttributeError).
Proof.
  intros m l o (_ & U & _) NR H. pose proof (kept_none m_nbar is_selection step_nbar l m NR U) as E. destruct H as [H|[noise ->]].
  - destruct o; try contradiction. cbn [Mesh_Model.step]. rewrite E. destruct (m_delta_r (after m l)); auto.
  - cbn [Mesh_Model.step]. unfold white_noise. rewrite E. destruct (m_delta_r (after m l)); auto.
Qed.
Theorem C65_no_sample : forall m l, untouched m -> (forall x, In x l -> ~ is_poisson x) ->
  to_catalog c (after m l) = Err AttributeError /\ (c = Lagrangian -> forall f los, step (after m l) (SetRsd f los) = (after m l, Err AttributeError)).
Proof.
  intros m l (_ & _ & _ & U & _) NR. pose proof (kept_none m_position is_poisson step_position l m NR U) as E. split; [unfold to_catalog; rewrite E; auto|]. intros C f los. revert E. generalize (after m l). intros m' E. cbn [Mesh_Model.step]. rewrite C, E. auto.
Qed.
(** A sample once drawn is exported with the same objects, displacements, box and center, until a call that moves them. *)
Theorem C65_kept : forall m l, (forall x, In x l -> ~ moves c x) -> to_catalog c (after m l) = to_catalog c m.
Proof.
  intros m l H. assert (K : m_position (after m l) = m_position m /\ m_disps (after m l) = m_disps m /\ m_center (after m l) = m_center m).
  { revert m H. induction l as [|o l IH]; intros m H; auto. rewrite after_cons. destruct (IH (fst (step m o))) as (-> & -> & ->); [intros; apply H; right; auto|]. apply step_kept. apply H. left. auto. }
  destruct K as (K1 & K2 & K3). destruct (after_box l m) as [B _]. unfold to_catalog. rewrite K1, K2, K3, B. auto.
Qed.
End Calls.
Print Assumptions C65_no_field.
Print Assumptions C65_no_density.
Print Assumptions C65_no_sample.
Print Assumptions C65_kept.

(** What is exported right after a sample is drawn, for Eulerian mocks: the objects drawn, cell by cell, all in the box of the catalog. *)
Theorem C65_eulerian : forall freq neg pm m l po un rs co, solid (m_box m) -> nonempty (m_n m) -> distributed pm (m_n m) -> proper_draws (Poisson po un rs co) ->
  answer freq neg pm Eulerian m l (Poisson po un rs co) = Ok tt ->
  exists cat pos d b, to_catalog Eulerian (after freq neg pm Eulerian m (l ++ [Poisson po un rs co])) = Ok cat /\ position (bc_cat cat) = Ok pos /\ boxsize cat = m_box m /\ boxcenter cat = m_center (after freq neg pm Eulerian m l) /\
    m_delta_r (after freq neg pm Eulerian m l) = Some d /\ m_nbar (after freq neg pm Eulerian m l) = Some b /\
    in_cells (boxsize cat) (boxcenter cat) (m_n m) (combine (cells (m_n m)) (po (means (m_box m) (m_n m) d (density_at b)))) pos /\
    Forall (between (lower (boxsize cat) (boxcenter cat)) (upper (boxsize cat) (boxcenter cat))) pos.
Proof.
  intros freq neg pm m l po un rs co SB N [PE _] [PL ST] H. unfold answer in H. rewrite after_app, after_cons, after_nil. destruct (after_box freq neg pm Eulerian l m) as [EB EN]. set (m' := after freq neg pm Eulerian m l) in *.
  cbn [step] in H |- *. destruct (m_delta_r m') as [d|] eqn:ED; [|discriminate]. cbn [attribute bind] in H |- *. destruct (m_nbar m') as [b|] eqn:EBn; [|discriminate]. cbn [attribute bind] in H |- *.
  destruct (poisson_sample (m_box m') (m_center m') (m_n m') d (times b (fun _ => 1)) po (parts pm) un) as [pos|] eqn:ES; [|discriminate]. cbn [fst]. rewrite EB, EN in ES.
  assert (NB : means (m_box m) (m_n m) d (times b (fun _ => 1)) = means (m_box m) (m_n m) d (density_at b)) by (unfold means; apply map_ext; intros x; unfold times, density_at; destruct b; ring).
  eexists _, pos, d, b. split; [reflexivity|]. cbn [bc_cat boxsize boxcenter set_position m_box m_center]. split; [reflexivity|]. rewrite EB. repeat (split; [auto|]).
  - rewrite <- NB. eapply C39_cells; eauto.
  - eapply C39_number; eauto.
Qed.
Print Assumptions C65_eulerian.
(** For Lagrangian mocks: objects of such a sample moved by their displacement, read in the three displacement fields, and put back in
    the box; the displacement is exported as the velocity. *)
Lemma rows3_map : forall {A} (a b c : A -> R) l, rows3 (map a l) (map b l) (map c l) = map (fun x => V (a x) (b x) (c x)) l.
Proof. intros A a b c l. induction l as [|x l IH]; cbn; [|rewrite IH]; auto. Qed.
Lemma add_rows_map : forall (g : vec -> vec) l, add_rows l (map g l) = map (fun p => vadd p (g p)) l.
Proof. intros g l. unfold add_rows. induction l as [|x l IH]; cbn; [|rewrite IH]; auto. Qed.
Theorem C65_lagrangian : forall freq neg pm m l po un rs co r, solid (m_box m) -> nonempty (m_n m) -> distributed pm (m_n m) -> proper_draws (Poisson po un rs co) -> resampler_of rs r ->
  let m' := after freq neg pm Lagrangian m l in answer freq neg pm Lagrangian m l (Poisson po un rs co) = Ok tt ->
  exists cat pos disps initial d b psi, to_catalog Lagrangian (after freq neg pm Lagrangian m (l ++ [Poisson po un rs co])) = Ok cat /\ position (bc_cat cat) = Ok pos /\ velocity (bc_cat cat) = Ok disps /\
    boxsize cat = m_box m /\ boxcenter cat = m_center m' /\ m_delta_r m' = Some d /\ m_nbar m' = Some b /\ m_disp m' = Some psi /\
    in_cells (boxsize cat) (boxcenter cat) (m_n m) (combine (cells (m_n m)) (po (means (m_box m) (m_n m) d (density_at b)))) initial /\
    disps = map (fun p => V (value_at pm m' r (psi 0%nat) p) (value_at pm m' r (psi 1%nat) p) (value_at pm m' r (psi 2%nat) p)) initial /\
    row_by_row (fun p d q => same_place (boxsize cat) (vadd p d) q /\ between (lower (boxsize cat) (boxcenter cat)) (upper (boxsize cat) (boxcenter cat)) q) initial disps pos.
Proof.
  intros freq neg pm m l po un rs co r SB N D [PL ST] RS m' H. unfold answer in H. rewrite after_app, after_cons, after_nil. destruct (after_box freq neg pm Lagrangian l m) as [EB EN]. fold m' in EB, EN, H |- *. clearbody m'. assert (PE := proj1 D).
  cbn [step] in H |- *. destruct (m_delta_r m') as [d|] eqn:ED; [|discriminate]. cbn [attribute bind] in H |- *. destruct (m_nbar m') as [b|] eqn:EBn; [|discriminate]. cbn [attribute bind] in H |- *.
  destruct (poisson_sample (m_box m') (m_center m') (m_n m') d (times b (fun _ => 1)) po (parts pm) un) as [initial|] eqn:ES; [|discriminate].
  assert (NB : means (m_box m) (m_n m) d (times b (fun _ => 1)) = means (m_box m) (m_n m) d (density_at b)) by (unfold means; apply map_ext; intros x; unfold times, density_at; destruct b; ring).
  set (m1 := set_disps (set_position m' initial) initial) in *. change (m_disp m1) with (m_disp m') in *. destruct (m_disp m') as [psi|] eqn:EP; [|discriminate]. cbn [attribute bind] in H |- *.
  assert (K : known pm r = true). { apply resampler_eq in RS. subst r. unfold lagrangian_readout in H. cbn [bind] in H. unfold readout in H at 1. cbn [choose_field bind] in H. destruct (known pm _); [auto|discriminate]. }
  assert (R1 : forall i, lagrangian_readout freq pm m1 initial (Given (psi i)) rs co = Ok (map (value_at pm m' r (psi i)) initial)).
  { intros i. unfold lagrangian_readout. cbn [bind]. rewrite (given_read freq pm m1 initial (psi i) rs r); auto. change (m_n m1) with (m_n m'). rewrite EN. auto. }
  rewrite !R1 in H |- *. cbn [bind setting snd fst] in H |- *. rewrite rows3_map, add_rows_map. set (dis := fun p => V _ _ _). rewrite map_map.
  eexists _, _, (map dis initial), initial, d, b, psi. split; [reflexivity|]. split; [reflexivity|]. split; [reflexivity|]. cbn [boxsize boxcenter set_disps set_position m1 m_box m_center]. rewrite EB in ES |- *. rewrite EN in ES. repeat (split; [solve [auto]|]). split; [rewrite <- NB; eapply C39_cells; eauto|]. split; [reflexivity|].
  - assert (LS : lagrangian_sample (m_box m) (m_center m') (m_n m) d (times b (fun _ => 1)) po (parts pm) un (fun i p => value_at pm m' r (psi i) p) = Ok (map (fun p => wrap (m_box m) (corner (m_box m) (m_center m')) (vadd p (dis p))) initial, map dis initial)).
    { unfold lagrangian_sample. rewrite ES. cbn [bind]. cbv zeta. rewrite !map_map. reflexivity. }
    destruct (C41_in_box _ _ _ _ _ _ _ _ _ _ _ SB LS) as (i' & E' & _ & RR). rewrite ES in E'. apply ok_inj in E'. subst i'. destruct RR as [RL RR]. split; auto. intros i p v q Hp Hv Hq. destruct (RR i p v q Hp Hv Hq) as (_ & X & Y). auto.
Qed.
Print Assumptions C65_lagrangian.
(** The two ways of building a mock give untouched ones, and after the same calls (but set_complex_delta_field) give the same answers,
    fields and catalogs. *)
Theorem C65_new : (forall freq box n center power los noise inverted m, mock_new freq box n center power los noise inverted = Ok m -> untouched m /\ m_box m = box /\ m_n m = n) /\
  (forall box n mesh center, let m := from_complex_delta_field box n mesh center in untouched m /\ m_box m = box /\ m_n m = n).
Proof.
  split; [|repeat split]. intros freq box n center power los noise inverted m H. unfold mock_new in H. destruct (match los with None => _ | Some _ => _ end) as [u|]; [|discriminate]. cbn [bind] in H. destruct (set_complex_delta_field _ _ _ _ _ _ _); [|discriminate]. cbn [bind] in H. apply ok_inj in H. subst. repeat split.
Qed.
Print Assumptions C65_new.
Definition forget (m : mock) : mock := Mock (m_box m) (m_n m) (m_center m) None (m_delta_k m) (m_delta_r m) (m_nbar m) (m_norm m) (m_disp m) (m_position m) (m_disps m).
Lemma step_forget : forall freq neg pm c m o, ~ is_complex o -> step freq neg pm c (forget m) o = (forget (fst (step freq neg pm c m o)), snd (step freq neg pm c m o)).
Proof.
  intros freq neg pm c m o H. destruct o as [|bias lg|nb i|noise|f los|po un rs co|ce]; cbn [is_complex] in H; try (exfalso; tauto); cbn [step].
  - cbn [forget m_box m_center m_n m_delta_k]. destruct (set_real_delta_field _ _ _ _ _ _ _); auto. destruct c; auto.
  - change (select_density freq neg (forget m) nb i) with (select_density freq neg m nb i). destruct (select_density _ _ _ _ _); auto.
  - change (white_noise (forget m) noise) with (white_noise m noise). destruct (white_noise m noise); auto.
  - destruct c; [cbn [forget m_delta_r m_box m_center m_n m_delta_k]; destruct (attribute (m_delta_r m)); auto; cbn [bind]; destruct (eulerian_set_rsd _ _ _ _ _ _ _ _ _); auto|]. cbn [forget m_position m_disps]. destruct (attribute (m_position m)); auto. cbn [bind]. destruct (attribute (m_disps m)); auto. cbn [bind]. destruct (lagrangian_set_rsd _ _ _ _); auto.
  - cbn [forget m_delta_r m_nbar m_box m_center m_n]. destruct (do d <- attribute (m_delta_r m); _) as [p|]; auto. destruct c; auto. unfold setting. cbn [set_disps set_position m_disp forget]. destruct (attribute (m_disp m)); auto. cbn [bind].
    assert (L : forall a, lagrangian_readout freq pm (set_disps (set_position (forget m) p) p) p (Given a) rs co = lagrangian_readout freq pm (set_disps (set_position m p) p) p (Given a) rs co) by reflexivity. rewrite !L. destruct (lagrangian_readout _ _ _ _ _ _ _); auto. cbn [bind]. destruct (lagrangian_readout _ _ _ _ _ _ _); auto. cbn [bind]. destruct (lagrangian_readout _ _ _ _ _ _ _); auto.
  - auto.
Qed.
Theorem C65_from_field : forall freq neg pm c box n center power los noise inverted m l, mock_new freq box n center power los noise inverted = Ok m -> (forall x, In x l -> ~ is_complex x) ->
  let m' := from_complex_delta_field box n (inl (m_delta_k m)) center in
  snd (run freq neg pm c m' l) = snd (run freq neg pm c m l) /\ to_catalog c (after freq neg pm c m' l) = to_catalog c (after freq neg pm c m l) /\
  to_nbodykit_mesh (after freq neg pm c m' l) = to_nbodykit_mesh (after freq neg pm c m l) /\
  forall pos arg rs co, mock_readout c freq pm (after freq neg pm c m' l) pos arg rs co = mock_readout c freq pm (after freq neg pm c m l) pos arg rs co.
Proof.
  intros freq neg pm c box n center power los noise inverted m l H NC m'. assert (E : m' = forget m).
  { unfold mock_new in H. destruct (match los with None => _ | Some _ => _ end) as [u|]; [|discriminate]. cbn [bind] in H. destruct (set_complex_delta_field _ _ _ _ _ _ _); [|discriminate]. cbn [bind] in H. apply ok_inj in H. subst m. auto. }
  clearbody m'. subst m'. assert (R : run freq neg pm c (forget m) l = (forget (fst (run freq neg pm c m l)), snd (run freq neg pm c m l))).
  { clear H. revert m. induction l as [|o l IH]; intros m; auto. cbn [run]. rewrite step_forget by (apply NC; left; auto). destruct (step freq neg pm c m o) as [m1 r]. cbn [fst snd]. rewrite IH by (intros; apply NC; right; auto). destruct (run freq neg pm c m1 l). auto. }
  unfold after. rewrite R. cbn [fst snd]. split; auto. split; [destruct c; auto|]. split; auto. intros. destruct c; auto.
Qed.
Print Assumptions C65_from_field.
(** The same from a real field, through its Fourier modes. *)
Theorem C65_from_real_field : forall box n d center bias lognormal neg, nonempty n -> bias = None -> lognormal = false ->
  let m := from_complex_delta_field box n (inr d) center in exists e, set_real_delta_field neg box (m_center m) n (m_delta_k m) bias lognormal = Ok e /\ same_mesh n e d.
Proof. intros box n d center bias lognormal neg N -> -> m. eexists. split; [reflexivity|]. intros x X. apply c2r_r2c; auto. Qed.
Print Assumptions C65_from_real_field.
(** The method that sets the field in Fourier space raises on such a mock. *)
Theorem C65_set_complex_refuted : forall freq neg pm c box n mesh center, step freq neg pm c (from_complex_delta_field box n mesh center) SetComplex = (from_complex_delta_field box n mesh center, Err KeyError).
Proof. reflexivity. Qed.
Print Assumptions C65_set_complex_refuted.
(** A sample of a Lagrangian mock that fails, because of the name of the resampler, is exported nonetheless, with the positions as displacements. *)
Theorem C65_failed_sample_refuted : forall freq neg pm m po un rs co d b psi, known pm (if String.eqb (lowercase rs) "ngp" then "nnb" else lowercase rs) = false ->
  m_delta_r m = Some d -> m_nbar m = Some b -> m_disp m = Some psi -> solid (m_box m) -> nonempty (m_n m) -> density_ok (m_n m) d (density_at b) ->
  exists m' cat pos, step freq neg pm Lagrangian m (Poisson po un rs co) = (m', Err ExternalError) /\ to_catalog Lagrangian m' = Ok cat /\ position (bc_cat cat) = Ok pos /\ velocity (bc_cat cat) = Ok pos.
Proof.
  intros freq neg pm m po un rs co d b psi K E1 E2 E3 SB N DO. destruct (proj2 (C39_negative_density (m_box m) (m_center m) (m_n m) d (times b (fun _ => 1)) po (parts pm) un SB N)) as [pos P].
  { intros x X. specialize (DO x X). unfold times. unfold density_at in DO. destruct b; rewrite Rmult_1_r; auto. }
  cbn [step]. rewrite E1, E2. cbn [attribute bind]. rewrite P. cbn [set_disps set_position m_disp]. rewrite E3. cbn [attribute bind]. unfold lagrangian_readout at 1. cbn [bind]. unfold readout. cbn [choose_field bind]. rewrite K. cbn [bind setting].
  eexists _, _, pos. split; [reflexivity|]. split; [reflexivity|]. split; reflexivity.
Qed.
Print Assumptions C65_failed_sample_refuted.
(** Moving the center of a mock after its sample is drawn leaves the same objects in the catalog, some of them out of its box. *)
Theorem C65_center_refuted : forall freq neg pm c m cat p pos, solid (m_box m) -> to_catalog c m = Ok cat -> position (bc_cat cat) = Ok (p :: pos) ->
  exists v cat', to_catalog c (fst (step freq neg pm c m (SetCenter v))) = Ok cat' /\ position (bc_cat cat') = Ok (p :: pos) /\ boxsize cat' = boxsize cat /\
    ~ between (lower (boxsize cat') (boxcenter cat')) (upper (boxsize cat') (boxcenter cat')) p.
Proof.
  intros freq neg pm c m cat p pos (B1 & B2 & B3) H P. set (x := vx p + 2 * vx (m_box m)). exists (Scalar x). unfold to_catalog in *. cbn [step fst set_center m_position m_disps m_box m_center first second third].
  assert (O : ~ between (lower (m_box m) (V x x x)) (upper (m_box m) (V x x x)) p) by (intros [O _]; unfold lower, x in O; cbn [vx vsub vscale] in O; lra).
  destruct (attribute (m_position m)) as [q|]; [|discriminate]. cbn [bind] in H |- *. destruct c.
  - apply ok_inj in H. subst. eexists. split; [reflexivity|]. split; [exact P|]. split; auto.
  - destruct (attribute (m_disps m)); [|discriminate]. cbn [bind] in H |- *. apply ok_inj in H. subst. eexists. split; [reflexivity|]. split; [exact P|]. split; auto.
Qed.
Print Assumptions C65_center_refuted.
Lemma Rsum_ones : forall {A} (l : list A), Rsum (map (fun _ => 1) l) = INR (List.length l).
Proof. intros A l. induction l as [|x l IH]; [reflexivity|]. cbn [map List.length]. rewrite S_INR, <- IH. cbn [Rsum fold_right]. unfold Rsum. cbn [fold_right]. ring. Qed.
(** The normalization: the integral over the box of the squared mean density, the same for a number and for a function with this constant value. *)
Theorem C65_norm : forall freq neg pm c m a, solid (m_box m) -> nonempty (m_n m) -> (forall x, within (m_n m) x -> node (m_box m) (m_center m) (m_n m) x <> vzero) ->
  exists m1 m2 s, step freq neg pm c m (SetSelection (inl a) 0) = (m1, Ok tt) /\ step freq neg pm c m (SetSelection (inr (fun _ _ _ => a)) 0) = (m2, Ok tt) /\
    m_norm m1 = Some s /\ m_norm m2 = Some s /\ s = a ^ 2 * (vx (m_box m) * vy (m_box m) * vz (m_box m)).
Proof.
  intros freq neg pm c m a SB N NZ. set (box := m_box m) in *. set (n := m_n m) in *.
  assert (P : exists b, paint neg box (corner box (m_center m)) n (fun _ _ _ => a) = Ok b /\ same_mesh n b (fun _ => a)).
  { destruct (Interlace_Thm.paint_ok neg box (m_center m) n (fun _ _ _ => a) 0 (fun _ => a) SB) as (b & E & B).
    - intros x X. replace (moved box (m_center m) n x 0) with (node box (m_center m) n x); [apply NZ; auto|]. unfold moved, vadd, vscale. destruct (node box (m_center m) n x). cbn. f_equal; ring.
    - intros; auto.
    - exists b. split; [|intros x X; apply B; auto]. rewrite <- E. f_equal. unfold Interlace_Thm.offset_by, corner, vadd, vscale. cbn. f_equal; ring. }
  destruct P as (b & PB & SM). cbn [step]. unfold select_density, set_selection. fold box n. rewrite PB. cbn [bind]. unfold setting. cbn [fst snd]. eexists _, _, _. split; [reflexivity|]. split; [reflexivity|]. split; [reflexivity|].
  destruct SB as (B1 & B2 & B3). pose proof N as (N1 & N2 & N3). apply lt_0_INR in N1, N2, N3. split.
  - cbn [set_nbar m_norm]. f_equal. f_equal. rewrite (Rsum_map_ext _ (fun _ => a ^ 2 * 1)); [|intros x X; rewrite SM by (apply cells_In; auto); ring]. rewrite Rsum_scale. rewrite <- cells_length. rewrite Rmult_comm. f_equal. apply Rsum_ones.
  - unfold size, cell_size. cbn [vx vy vz]. field. repeat split; lra.
Qed.
Print Assumptions C65_norm.

(** Redshift space distortions of a Lagrangian mock, as exported: objects move along the line of sight by f times their displacement; displacements, box and center stay. *)
Lemma exported : forall m cat pos vel, to_catalog Lagrangian m = Ok cat -> position (bc_cat cat) = Ok pos -> velocity (bc_cat cat) = Ok vel -> m_position m = Some pos /\ m_disps m = Some vel.
Proof.
  intros m cat pos vel H P W. unfold to_catalog in H. destruct (m_position m) as [q|]; [|discriminate]. cbn [attribute bind] in H. destruct (m_disps m) as [d|]; [|discriminate]. cbn [attribute bind] in H. apply ok_inj in H. subst cat. split; f_equal; apply ok_inj; [rewrite <- P|rewrite <- W]; reflexivity.
Qed.
Theorem C65_rsd : forall freq neg pm m cat pos vel f los (rel : vec -> vec -> vec -> Prop), to_catalog Lagrangian m = Ok cat -> position (bc_cat cat) = Ok pos -> velocity (bc_cat cat) = Ok vel -> List.length vel = List.length pos ->
  match los with None => (forall p, In p pos -> p <> vzero) /\ rel = moved_radially f | Some a => exists u, los_means a u /\ rel = moved_along u f end ->
  exists m' cat' pos', step freq neg pm Lagrangian m (SetRsd (FNum f) los) = (m', Ok tt) /\ to_catalog Lagrangian m' = Ok cat' /\ position (bc_cat cat') = Ok pos' /\ velocity (bc_cat cat') = Ok vel /\
    boxsize cat' = boxsize cat /\ boxcenter cat' = boxcenter cat /\ row_by_row rel pos vel pos'.
Proof.
  intros freq neg pm m cat pos vel f los rel H P W L LOS. destruct (exported m cat pos vel H P W) as [E1 E2].
  assert (K : exists out, lagrangian_set_rsd pos vel (FNum f) los = Ok out /\ row_by_row rel pos vel out).
  { destruct los as [a|]; [destruct LOS as (u & U & ->); apply C41_rsd_fixed; auto|destruct LOS as [NZ ->]; apply C41_rsd_local; auto]. }
  destruct K as (out & O & RR). unfold to_catalog in H. rewrite E1, E2 in H. cbn [attribute bind] in H. apply ok_inj in H. subst cat. cbn [step]. rewrite E1, E2. cbn [attribute bind]. rewrite O. cbn [setting]. eexists _, _, out. split; [reflexivity|]. unfold to_catalog. cbn [set_position m_position m_disps m_box m_center]. rewrite E2. split; [reflexivity|]. split; [reflexivity|]. split; [reflexivity|]. auto.
Qed.
Print Assumptions C65_rsd.
(** White noise: added to the field, with variance one over the mean number of objects of the cell; where this number is not positive the call fails. *)
Theorem C65_white_noise : forall freq neg pm c m noise d b, m_delta_r m = Some d -> m_nbar m = Some b -> solid (m_box m) -> nonempty (m_n m) ->
  let number x := density_at b x * (vx (m_box m) * vy (m_box m) * vz (m_box m)) / size (m_n m) in
  ((exists m', step freq neg pm c m (SetWhiteNoise noise) = (m', Ok tt)) <-> forall x, within (m_n m) x -> 0 < number x) /\
  (forall m', step freq neg pm c m (SetWhiteNoise noise) = (m', Ok tt) -> exists d', m_delta_r m' = Some d' /\ same_mesh (m_n m) d' (fun x => d x + noise x / sqrt (number x))).
Proof.
  intros freq neg pm c m noise d b E1 E2 SB N number. destruct N as (N1 & N2 & N3). apply lt_0_INR in N1, N2, N3.
  assert (Q : forall x, times b (fun _ => vx (cell_size (m_box m) (m_n m)) * vy (cell_size (m_box m) (m_n m)) * vz (cell_size (m_box m) (m_n m))) x = number x).
  { intros x. unfold times, number, density_at, size, cell_size. cbn [vx vy vz]. destruct b; field; repeat split; lra. }
  cbn [step]. unfold white_noise. rewrite E1, E2. cbn [attribute bind]. unfold setting. split; [split|].
  - intros [m' H] x X. destruct (tabulate _ _ _) as [h|] eqn:T; [|discriminate]. pose proof (tabulate_inv _ _ _ _ T x X) as Y. cbv zeta beta in Y. rewrite Q in Y. destruct (Rlt_dec 0 (number x)); [auto|discriminate].
  - intros H. destruct (tabulate_ok (m_n m) (fun x => let v := times b (fun _ => vx (cell_size (m_box m) (m_n m)) * vy (cell_size (m_box m) (m_n m)) * vz (cell_size (m_box m) (m_n m))) x in if Rlt_dec 0 v then Ok (d x + noise x / sqrt v) else Err ZeroDivision) 0 (fun x => d x + noise x / sqrt (number x))) as (h & T & _).
    + intros x X. cbv zeta. rewrite Q. destruct (Rlt_dec 0 (number x)) as [|K]; [auto|]. destruct K. auto.
    + cbv zeta in T |- *. rewrite T. eauto.
  - intros m' H. destruct (tabulate _ _ _) as [h|] eqn:T; [|discriminate]. injection H as <-. exists h. split; [auto|]. intros x X. pose proof (tabulate_inv _ _ _ _ T x X) as Y. cbv zeta beta in Y. rewrite Q in Y. destruct (Rlt_dec 0 (number x)); [apply ok_inj in Y; auto|discriminate].
Qed.
Print Assumptions C65_white_noise.
(** The mesh exported to nbodykit: the product of the density contrast and of the mean density, with the size and the center of the box. *)
Theorem C65_nbodykit : forall m mesh box center, to_nbodykit_mesh m = Ok (mesh, box, center) <->
  exists d b, m_delta_r m = Some d /\ m_nbar m = Some b /\ mesh = (fun x => d x * density_at b x) /\ box = m_box m /\ center = m_center m.
Proof.
  intros m mesh box center. unfold to_nbodykit_mesh. split.
  - intros H. destruct (m_delta_r m) as [d|]; [|discriminate]. cbn [attribute bind] in H. destruct (m_nbar m) as [b|]; [|discriminate]. cbn [attribute bind] in H. apply ok_inj in H. injection H as <- <- <-. exists d, b. repeat split. apply FunctionalExtensionality.functional_extensionality. intros x. unfold times, density_at. destruct b; ring.
  - intros (d & b & -> & -> & -> & -> & ->). cbn [attribute bind]. f_equal. f_equal. f_equal. apply FunctionalExtensionality.functional_extensionality. intros x. unfold times, density_at. destruct b; ring.
Qed.
Print Assumptions C65_nbodykit.
(** A mock from a field of zeros, of two cells, sampled with one object per cell: the hypotheses above hold, of both classes. *)
Definition flat : mock := from_complex_delta_field (V 2 1 1) (I 2 1 1) (inr (fun _ => 0)) (Scalar 3).
Definition flat_calls : list op := [SetReal None false; SetSelection (inl 1) 0].
Definition flat_draw : op := Poisson (map (fun _ => 1%nat)) (fun k => repeat (V (1 / 2) (1 / 2) (1 / 2)) k) "NGP" true.
Example C65_case : forall c, untouched flat /\ solid (m_box flat) /\ nonempty (m_n flat) /\ distributed at_origin (m_n flat) /\ proper_draws flat_draw /\ resampler_of "NGP" "nnb" /\
  answer signed (fun _ _ => false) at_origin c flat flat_calls flat_draw = Ok tt /\ (forall x, In x flat_calls -> ~ is_poisson x) /\ (forall x, In x flat_calls -> ~ moves c x).
Proof.
  intros c. split; [repeat split|]. split; [repeat split; cbn; lra|]. split; [repeat split; cbn; lia|]. split; [split; [cbn; auto|discriminate]|]. split.
  { split; [intro; apply map_length|]. intro k. split; [apply repeat_length|]. intros u U. apply repeat_spec in U. subst. unfold between. cbn. lra. }
  split; [apply resampler_eq; reflexivity|]. split; [|split; intros x [<-|[<-|[]]]; auto; destruct c; auto].
  unfold answer. set (d := c2r (I 2 1 1) (m_delta_k flat)). assert (D : forall x, within (I 2 1 1) x -> d x = 0) by (intros x X; unfold d, flat; cbn [from_complex_delta_field m_delta_k]; rewrite c2r_r2c; auto; repeat split; cbn; lia).
  assert (NE : nonempty (I 2 1 1)) by (repeat split; cbn; lia). assert (SB : solid (V 2 1 1)) by (repeat split; cbn; lra).
  destruct (proj2 (C39_negative_density (V 2 1 1) (V 3 3 3) (I 2 1 1) d (times (Number 1) (fun _ => 1)) (map (fun _ => 1%nat)) (parts at_origin) (fun k => repeat (V (1 / 2) (1 / 2) (1 / 2)) k) SB NE)) as [pos P].
  { intros x X. rewrite D by auto. cbn. lra. }
  assert (A : forall m' dis, m_box m' = V 2 1 1 -> m_center m' = V 3 3 3 -> m_n m' = I 2 1 1 -> m_delta_r m' = Some d -> m_nbar m' = Some (Number 1) -> (c = Lagrangian -> m_disp m' = Some dis) -> snd (step signed (fun _ _ => false) at_origin c m' flat_draw) = Ok tt).
  { intros m' dis A1 A2 A3 A4 A5 A6. unfold flat_draw. cbn [step]. rewrite A1, A2, A3, A4, A5. cbn [attribute bind]. rewrite P. destruct c; [reflexivity|]. cbn [set_disps set_position m_disp]. rewrite A6 by auto. reflexivity. }
  destruct c; [apply (A _ (fun _ _ => 0)); try reflexivity; discriminate|eapply A; reflexivity].
Qed.

(** Property C72: arrays turned into meshes. Whatever its arguments, the function raises: a name is not defined. *)
Theorem C72_raises_refuted : forall shape type nmesh root, exists e, array_mesh shape type nmesh root = Err e /\ (e = NameError \/ e = ValueError) /\ (nmesh <> None -> e = NameError).
Proof.
  intros shape type nmesh root. unfold array_mesh. destruct nmesh as [v|].
  - exists NameError. cbn. auto.
  - destruct (String.eqb (lowercase type) "real" && root)%bool; [destruct shape|]; eexists; cbn; split; try reflexivity; split; auto; intros []; auto.
Qed.
Print Assumptions C72_raises_refuted.
Theorem C72_scattered : forall shape type, array_mesh shape type None false = Err ValueError.
Proof. intros. unfold array_mesh. rewrite andb_false_r. reflexivity. Qed.
Print Assumptions C72_scattered.
