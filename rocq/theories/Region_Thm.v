(** Property C66: photometric regions. *)
Require Import Reals ZArith String Ascii List Bool Lra Lia.
From Verif Require Import Base Box_Model Foot_Model Region_Model Region_Spec.
Import ListNotations.
Open Scope R_scope.

Lemma one_of_iff : forall s l, one_of s l = true <-> In s l.
Proof. intros s l. unfold one_of. rewrite existsb_exists. split; [intros (x & I & E); apply String.eqb_eq in E; subst; auto|intros I; exists s; split; auto; apply String.eqb_refl]. Qed.
Lemma tells_map : forall {A} (l : list A) f prop, (forall p, f p = true <-> prop p) -> tells l (map f l) prop.
Proof. intros A l f prop H. unfold tells. induction l; constructor; auto. Qed.
Ltac names := cbn [one_of existsb String.eqb Ascii.eqb Bool.eqb orb andb].
Lemma cut_iff : forall name r p, named name r -> name <> "N+SNGC"%string -> name <> "N+DN"%string -> name <> "DES"%string -> region_cut name (fst p) (snd p) = true <-> belongs r p.
Proof.
  intros name r [ra dec] N H1 H2 H3. destruct N; try congruence; unfold region_cut; cbn; unfold north, south, ngc_side; cbn [fst snd]; rewrite ?andb_true_iff, ?negb_true_iff, ?andb_false_iff, ?Rltb_true, ?Rltb_false; lra.
Qed.
(** Without regressis: the mask tells the points of the region; the name is in any case. *)
Theorem C66_regions : forall pos name r, named (upper name) r -> r <> DES -> r <> NorthAndSouthNGC ->
  exists px mask, is_in_photometric_region None pos name = Ok (px, mask) /\ tells pos mask (belongs r) /\ List.length px = List.length pos.
Proof.
  intros pos name r N H1 H2. unfold is_in_photometric_region. set (u := upper name) in *. clearbody u.
  assert (O : one_of u ["N"; "DN"; "DS"; "N+SNGC"; "SNGC"; "SSGC"; "DES"]%string = true /\ String.eqb u "DES" = false) by (destruct N; try congruence; split; reflexivity).
  destruct O as [-> ->]. eexists _, _. split; [reflexivity|]. split; [|apply map_length]. apply tells_map. intros p. apply cut_iff; auto; intros ->; inversion N; subst; congruence.
Qed.
Print Assumptions C66_regions.
(** With regressis: the points in the pixels of the DR9 region of this name. *)
Theorem C66_regressis : forall g pos name r d, named (upper name) r -> dr9_name r d -> upper name <> "N+DN"%string ->
  exists px mask, is_in_photometric_region (Some g) pos name = Ok (px, mask) /\ tells pos mask (fun p => dr9 g d (hpx g p) = true) /\ px = map (fun p => Some (hpx g p)) pos.
Proof.
  intros g pos name r d N D H. unfold is_in_photometric_region. set (u := upper name) in *. clearbody u.
  assert (O : one_of u ["N"; "DN"; "DS"; "N+SNGC"; "SNGC"; "SSGC"; "DES"]%string = true /\ convert u convert_dict = Ok d) by (destruct N; try congruence; inversion D; subst; split; reflexivity).
  destruct O as [-> ->]. cbn [bind]. eexists _, _. split; [reflexivity|]. rewrite !map_map. split; auto. apply tells_map. tauto.
Qed.
Print Assumptions C66_regressis.
(** No point is in two of the three regions, and a point is in one unless it is at the limit between north and south or far south of the southern cap. *)
Theorem C66_apart : forall p, ~ (belongs North p /\ belongs SouthNGC p) /\ ~ (belongs North p /\ belongs SouthSGC p) /\ ~ (belongs SouthNGC p /\ belongs SouthSGC p) /\
  (snd p <> 32.375 -> -25 < snd p -> belongs North p \/ belongs SouthNGC p \/ belongs SouthSGC p).
Proof.
  intros [ra dec]. cbn. unfold north, south, ngc_side. cbn [fst snd]. assert (D := Rlt_dec (100 - dec) ra). assert (D' := Rlt_dec ra (280 + dec)). repeat split; try lra.
Qed.
Print Assumptions C66_apart.
(** So the masks never select the same object twice. *)
Theorem C66_disjoint : forall pos a b ra rb pa ma pb mb, named (upper a) ra -> named (upper b) rb -> ra <> rb -> ra <> NorthAndSouthNGC -> rb <> NorthAndSouthNGC ->
  is_in_photometric_region None pos a = Ok (pa, ma) -> is_in_photometric_region None pos b = Ok (pb, mb) -> Forall2 (fun x y => ~ (x = true /\ y = true)) ma mb.
Proof.
  assert (K : forall pos a r p m, named (upper a) r -> is_in_photometric_region None pos a = Ok (p, m) -> r <> DES).
  { intros pos a r p m N H E. subst r. inversion N as [| | | | | | |E]. unfold is_in_photometric_region in H. rewrite <- E in H. discriminate. }
  intros pos a b ra rb pa ma pb mb NA NB D Ha Hb HA HB. pose proof (K _ _ _ _ _ NA HA) as Da. pose proof (K _ _ _ _ _ NB HB) as Db.
  destruct (C66_regions pos a ra NA Da Ha) as (? & ? & EA & TA & _). rewrite HA in EA. injection EA as <- <-. destruct (C66_regions pos b rb NB Db Hb) as (? & ? & EB & TB & _). rewrite HB in EB. injection EB as <- <-.
  clear HA HB. revert mb TB. induction TA as [|p x l m P T IH]; intros mb TB; inversion TB as [|? y ? m' Q T']; subst; constructor; auto. rewrite P, Q. destruct (C66_apart p) as (C1 & C2 & C3 & _). destruct ra, rb; try congruence; tauto.
Qed.
Print Assumptions C66_disjoint.
(** Synonyms and other cases of letters give the same answer. *)
Theorem C66_case : forall g pos a b, upper a = upper b -> is_in_photometric_region g pos a = is_in_photometric_region g pos b.
Proof. intros g pos a b H. unfold is_in_photometric_region. rewrite H. auto. Qed.
Print Assumptions C66_case.
Theorem C66_synonyms : forall g pos, is_in_photometric_region g pos "DN" = is_in_photometric_region g pos "SNGC" /\ is_in_photometric_region g pos "DS" = is_in_photometric_region g pos "SSGC".
Proof. intros g pos. destruct g; split; reflexivity. Qed.
Print Assumptions C66_synonyms.
(** Unknown names are refused; DES is without regressis. *)
Theorem C66_unknown : forall g pos name, (forall r, ~ named (upper name) r) -> is_in_photometric_region g pos name = Err AssertionError.
Proof.
  intros g pos name H. unfold is_in_photometric_region. set (u := upper name) in *. clearbody u. destruct (one_of u _) eqn:E; auto. apply one_of_iff in E. exfalso. cbn [In] in E.
  repeat match type of E with _ \/ _ => destruct E as [E|E]; [subst u; eapply H; constructor|] end. contradiction.
Qed.
Print Assumptions C66_unknown.
Theorem C66_des : forall pos, is_in_photometric_region None pos "DES" = Err ValueError.
Proof. reflexivity. Qed.
Print Assumptions C66_des.
(** Centers: of every region with cuts, on the sphere and in the region. *)
Theorem C66_center_partial : forall name r, named name r -> r <> DES -> exists p, photometric_region_center name = Ok p /\ 0 <= fst p < 360 /\ -90 <= snd p <= 90 /\ belongs r p.
Proof.
  intros name r N D. destruct N; try congruence; eexists; (split; [reflexivity|]); cbn; unfold north, south, ngc_side; cbn [fst snd]; lra.
Qed.
Print Assumptions C66_center_partial.
(** The centers of the northern galactic cap are not in the region selected without regressis; names in small letters, DES and unknown names have no center but raise the wrong exception. *)
Theorem C66_center_refuted : exists p px, photometric_region_center "N+SNGC" = Ok p /\ is_in_photometric_region None [p] "N+SNGC" = Ok (px, [false]).
Proof.
  exists (192, 35), [None]. split; [reflexivity|]. unfold is_in_photometric_region. change (upper "N+SNGC") with "N+SNGC"%string. cbn [one_of existsb String.eqb Ascii.eqb Bool.eqb orb map]. unfold region_cut. cbn [one_of existsb String.eqb Ascii.eqb Bool.eqb orb fst snd].
  replace (Rltb 35 32.375) with false by (symmetry; apply Rltb_false; lra). reflexivity.
Qed.
Print Assumptions C66_center_refuted.
Theorem C66_center_unknown_refuted : (forall name, (forall r, ~ named name r) -> photometric_region_center name = Err NameError) /\ photometric_region_center "dn" = Err NameError /\ photometric_region_center "DES" = Err NameError.
Proof.
  split; [|split; reflexivity]. intros name H. unfold photometric_region_center. destruct (String.eqb name "N") eqn:E1; [apply String.eqb_eq in E1; subst; destruct (H North); constructor|].
  assert (K : forall l, (forall x, In x l -> exists r, named x r) -> one_of name l = false).
  { intros l L. destruct (one_of name l) eqn:E; auto. apply one_of_iff in E. destruct (L name E) as [r N]. destruct (H r N). }
  rewrite !K; auto; intros x; cbn [In]; intros X; repeat (destruct X as [<-|X]; [eexists; constructor|]); contradiction.
Qed.
Print Assumptions C66_center_unknown_refuted.
(** N+SNGC, without regressis, selects the whole south and nothing of the north. *)
Theorem C66_ngc_refuted : forall pos, exists px mask, is_in_photometric_region None pos "N+SNGC" = Ok (px, mask) /\ tells pos mask south /\ forall p, north p -> ~ south p.
Proof.
  intros pos. eexists _, _. split; [reflexivity|]. split; [|unfold north, south; intros; lra]. apply tells_map. intros p. assert (C : region_cut (upper "N+SNGC") (fst p) (snd p) = Rltb (snd p) 32.375) by reflexivity. rewrite C, Rltb_true. unfold south. tauto.
Qed.
Print Assumptions C66_ngc_refuted.
(** N+DN has a center but cannot be selected. *)
Theorem C66_ndn_refuted : forall g pos, (exists p, photometric_region_center "N+DN" = Ok p) /\ is_in_photometric_region g pos "N+DN" = Err AssertionError.
Proof. intros g pos. split; [eexists; reflexivity|reflexivity]. Qed.
Print Assumptions C66_ndn_refuted.
(** The answer depends on how right ascension is written: the same point is in the north galactic cap at 260 degrees, in the south one at -100. *)
Theorem C66_turn_refuted : exists p px py, is_in_photometric_region None [p; (fst p - 360, snd p)] "DN" = Ok (px, [true; false]) /\ is_in_photometric_region None [p; (fst p - 360, snd p)] "DS" = Ok (py, [false; true]).
Proof.
  exists (260, 0), [None; None], [None; None]. unfold is_in_photometric_region. change (upper "DN") with "DN"%string. change (upper "DS") with "DS"%string. cbn [one_of existsb String.eqb Ascii.eqb Bool.eqb orb map fst snd].
  assert (A : region_cut "DN" 260 0 = true) by (apply (cut_iff "DN" SouthNGC (260, 0)); try discriminate; [constructor|cbn; unfold south, ngc_side; cbn [fst snd]; lra]).
  assert (A' : region_cut "DS" (260 - 360) 0 = true) by (apply (cut_iff "DS" SouthSGC (260 - 360, 0)); try discriminate; [constructor|cbn; unfold south, ngc_side; cbn [fst snd]; lra]).
  assert (B : region_cut "DN" (260 - 360) 0 = false) by (apply not_true_is_false; rewrite (cut_iff "DN" SouthNGC (260 - 360, 0)); try discriminate; [cbn; unfold south, ngc_side; cbn [fst snd]; lra|constructor]).
  assert (B' : region_cut "DS" 260 0 = false) by (apply not_true_is_false; rewrite (cut_iff "DS" SouthSGC (260, 0)); try discriminate; [cbn; unfold south, ngc_side; cbn [fst snd]; lra|constructor]).
  rewrite A, A', B, B'. auto.
Qed.
Print Assumptions C66_turn_refuted.
Example C66_case_met : named (upper "dN") SouthNGC /\ belongs SouthNGC (192, 13) /\ (forall r, ~ named (upper "north") r).
Proof. split; [apply n_dn|]. split; [cbn; unfold south, ngc_side; cbn [fst snd]; lra|]. intros r H. inversion H. Qed.
