(** Proofs for the DESI cut-sky script: rows of the files of data. *)
Require Import Reals Lra Lia ZArith String List Sorted Bool.
From Verif Require Import Base Vec3 Isometry_Model Sky_Model Cutsky_Model Box_Model Box_Spec Box_Proof Box_Proof2 Box_Proof3 Box_Proof4 Rsd_Model Rsd_Spec Remap_Model Mask_Spec Mask_Model Sample_Model Random_Model Random_Spec Spline_Model FA_Model Foot_Model Region_Model Script_Model Script_Thm SV3_Model Rosette_Model Rosette_Spec Rosette_Proof3 Rosette_Proof6 Desi_Model Desi_Spec Desi_Proof.
Import ListNotations.
Open Scope R_scope.

(* ---------- rows by number ---------- *)
Lemma pick_map : forall {A B} (f : A -> B) idx l, pick idx (map f l) = map f (pick idx l).
Proof. intros A B f idx l. unfold pick. induction idx as [|k idx IH]; auto. cbn [flat_map]. rewrite IH, map_app, nth_error_map. destruct (nth_error l k); reflexivity. Qed.
Lemma pick_length : forall {A} idx (l : list A), (forall k, In k idx -> (k < List.length l)%nat) -> List.length (pick idx l) = List.length idx.
Proof.
  intros A idx l. unfold pick. induction idx as [|k idx IH]; intros H; auto. cbn [flat_map]. rewrite app_length, IH by (intros; apply H; right; auto).
  destruct (nth_error l k) eqn:E; [reflexivity|]. apply nth_error_None in E. specialize (H k (or_introl eq_refl)). lia.
Qed.
Lemma pick_nth_error : forall {A} idx (l : list A) k, (forall k, In k idx -> (k < List.length l)%nat) -> nth_error (pick idx l) k = match nth_error idx k with Some j => nth_error l j | None => None end.
Proof.
  intros A idx l. unfold pick. induction idx as [|j idx IH]; intros [|k] H; auto; cbn [flat_map nth_error];
    (destruct (nth_error l j) eqn:E; [|apply nth_error_None in E; specialize (H j (or_introl eq_refl)); lia]); cbn [List.app nth_error]; auto.
  apply IH. intros; apply H; right; auto.
Qed.
Lemma pick_In : forall {A} idx (l : list A) a, In a (pick idx l) <-> exists k, In k idx /\ nth_error l k = Some a.
Proof.
  intros A idx l a. unfold pick. rewrite in_flat_map. split.
  - intros (k & I & H). destruct (nth_error l k) eqn:E; [|easy]. destruct H as [<-|[] ]. eauto.
  - intros (k & I & E). exists k. rewrite E. cbn. auto.
Qed.
Lemma pick_pick : forall {A} idx2 idx (l : list A), (forall k, In k idx -> (k < List.length l)%nat) -> pick idx2 (pick idx l) = pick (pick idx2 idx) l.
Proof.
  intros A idx2 idx l H. induction idx2 as [|k idx2 IH]; auto. change (pick (k :: idx2) (pick idx l)) with ((match nth_error (pick idx l) k with Some a => [a] | None => [] end) ++ pick idx2 (pick idx l))%list.
  change (pick (k :: idx2) idx) with ((match nth_error idx k with Some a => [a] | None => [] end) ++ pick idx2 idx)%list. rewrite pick_app, <- IH. f_equal.
  rewrite pick_nth_error by auto. destruct (nth_error idx k) as [j|] eqn:E; [|reflexivity]. unfold pick. cbn. rewrite app_nil_r. reflexivity.
Qed.
Lemma sorted_nth : forall idx a b x y, StronglySorted lt idx -> (a < b)%nat -> nth_error idx a = Some x -> nth_error idx b = Some y -> (x < y)%nat.
Proof.
  induction idx as [|k idx IH]; intros a b x y S L A B; [destruct a; discriminate|]. inversion S; subst. destruct b as [|b]; [lia|]. cbn in B. destruct a as [|a]; cbn in A.
  - injection A as <-. rewrite Forall_forall in H2. apply H2. eapply nth_error_In; eauto.
  - eapply (IH a b); eauto. lia.
Qed.
Lemma sorted_pick : forall idx2 idx, StronglySorted lt idx2 -> StronglySorted lt idx -> StronglySorted lt (pick idx2 idx).
Proof.
  induction idx2 as [|k idx2 IH]; intros idx S2 S; [constructor|]. inversion S2; subst. unfold pick. cbn [flat_map]. fold (pick idx2 idx). destruct (nth_error idx k) as [j|] eqn:E; [|apply IH; auto].
  cbn [List.app]. constructor; [apply IH; auto|]. rewrite Forall_forall in *. intros x I. apply pick_In in I. destruct I as (k' & I & E'). eapply (sorted_nth idx k k'); eauto.
Qed.

(* ---------- footprints ---------- *)
Definition photo (installed : option regressis) (region : string) (p : R * R) : bool :=
  match installed with
  | None => region_cut (upper region) (fst p) (snd p)
  | Some r => match convert (upper region) convert_dict with Ok name => dr9 r name (hpx r p) | Err _ => false end
  end.
Lemma photo_ok : forall installed region p, photo installed region p = true <-> photo_area installed region p.
Proof.
  intros [r|] region p; unfold photo, photo_area; [|tauto]. destruct (convert _ _) as [name|]; split; intros H; eauto; try discriminate; destruct H as (n & E & D); try discriminate. injection E as <-. exact D.
Qed.
Lemma region_rows : forall installed pos region px pin, is_in_photometric_region installed pos region = Ok (px, pin) -> px = map (pixel_of installed) pos /\ pin = map (photo installed region) pos.
Proof.
  intros installed pos region px pin H. unfold is_in_photometric_region in H. destruct (one_of _ _); [|discriminate]. destruct installed as [r|].
  - unfold photo. destruct (convert _ _) as [name|]; [|discriminate]. cbn [bind] in H. injection H as <- <-. rewrite !map_map. split; reflexivity.
  - destruct (String.eqb _ _); [discriminate|]. injection H as <- <-. split; reflexivity.
Qed.
Definition surveyed (inside : string -> string -> option BinNums.Z -> R * R -> bool) (i : settings) (region : string) (p : R * R) : bool :=
  inside (i_release i) (i_program i) (i_npasses i) p && photo (i_regressis i) region p.
Lemma surveyed_ok : forall inside i region p, surveyed inside i region p = true <-> in_survey inside i region p.
Proof. intros. unfold surveyed, in_survey. rewrite andb_true_iff, photo_ok. tauto. Qed.
Lemma mask_and_map : forall {A} (f g : A -> bool) l, mask_and (map f l) (map g l) = Ok (map (fun x => f x && g x) l).
Proof. intros A f g. unfold mask_and. induction l as [|a l IH]; auto. cbn [map map2_result bind]. rewrite IH. reflexivity. Qed.
Lemma footprint_ok : forall inside i region c ra dec c' px, sky_area (i_desi i) inside -> column c "RA" = Some (ColS ra) -> column c "DEC" = Some (ColS dec) -> footprint i region c = Ok (c', px) ->
  Box_Model.select_rows (map (surveyed inside i region) (combine ra dec)) c = Ok c' /\ Box_Model.select (map (surveyed inside i region) (combine ra dec)) (map (pixel_of (i_regressis i)) (combine ra dec)) = Ok px.
Proof.
  intros inside i region c ra dec c' px A Cr Cd H. unfold footprint, apply_photo_desi_footprint, get_num in H. unfold column in Cr, Cd. rewrite Cr, Cd in H. cbn [bind] in H. rewrite A in H. cbn [bind] in H.
  destruct (is_in_photometric_region _ _ _) as [[px0 pin]|] eqn:E; [|discriminate]. cbn [bind] in H. apply region_rows in E. destruct E as [-> ->]. rewrite mask_and_map in H. cbn [bind] in H.
  change (fun x => inside (i_release i) (i_program i) (i_npasses i) x && photo (i_regressis i) region x) with (surveyed inside i region) in H.
  destruct (Box_Model.select _ _) as [px1|] eqn:E1; [|discriminate]. cbn [bind] in H. destruct (Box_Model.select_rows _ _) as [c1|] eqn:E2; [|discriminate]. injection H as <- <-. auto.
Qed.

(* ---------- the file of data ---------- *)
Lemma radial_rows : forall make fuel distance table zmin zmax smear u c c', apply_radial_mask make fuel distance table zmin zmax smear u c = Ok c' ->
  (exists m, nz_mask make fuel distance table zmin zmax = Ok m) /\ exists mask c1, Box_Model.select_rows mask c1 = Ok c'.
Proof.
  intros make fuel distance table zmin zmax smear u c c' H. unfold apply_radial_mask in H. destruct (nz_mask _ _ _ _ _ _) as [m|]; [|discriminate]. cbn [bind] in H.
  destruct (get_num _ _) as [z|]; [|discriminate]. cbn [bind] in H. destruct (get_num _ _) as [z'|]; [|discriminate]. cbn [bind] in H. eauto.
Qed.
Lemma first_column : forall c, pc_data c <> [] -> exists nm x, column c nm = Some x /\ csize c = match x with ColV l => List.length l | ColS l => List.length l end.
Proof. intros [d p v w iv] H. destruct d as [|[nm x] d]; [easy|]. exists nm, x. unfold column. cbn. rewrite String.eqb_refl. auto. Qed.
Lemma columns_filter : forall name d, lookup name (data_columns d) = if String.eqb name "RSDPosition" then None else lookup name d.
Proof.
  intros name. unfold data_columns. induction d as [|[n x] d IH]; [destruct (String.eqb _ _); reflexivity|]. cbn [filter fst]. destruct (String.eqb_spec n "RSDPosition") as [->|N]; cbn [negb].
  - rewrite IH. cbn [lookup]. destruct (String.eqb_spec name "RSDPosition"); reflexivity.
  - cbn [lookup]. destruct (String.eqb_spec name n) as [->|M]; [apply String.eqb_neq in N; rewrite N; reflexivity|exact IH].
Qed.
Lemma nth_combine_pick : forall {A B} (f : A -> B) idx l k, pick idx (map f l) = map f (pick idx l) -> nth_error (pick idx (map f l)) k = option_map f (nth_error (pick idx l) k).
Proof. intros A B f idx l k ->. apply nth_error_map. Qed.
Lemma combine_maps : forall {A B C} (f : A -> B) (g : A -> C) l, combine (map f l) (map g l) = map (fun x => (f x, g x)) l.
Proof. intros A B C f g. induction l as [|a l IH]; auto. cbn. rewrite IH. reflexivity. Qed.

Lemma data_ok : forall inside i box n region ra dec seed cutsky c' px, ready i box n -> sky_area (i_desi i) inside -> (forall s z, List.length (i_smear i s z) = List.length z) ->
  region_cutsky call_meant i box (ra, dec) seed = Ok cutsky -> footprint i region cutsky = Ok (c', px) ->
  data_of inside i box region ra dec seed (csize cutsky) (Table (data_columns (pc_data c')) px).
Proof.
  intros inside i box n region ra dec seed cutsky c' px (Eb & W & X & Y & Z & (pos & P & C) & (vel & Vl)) A Sm H F. unfold region_cutsky in H. cbn [fst snd] in H.
  destruct (rsd_and_cutsky call_meant box _ _ _ ra dec) as [cat|] eqn:Er; [|discriminate]. cbn [bind] in H.
  destruct (placed_ok box n pos vel _ _ _ ra dec cat W X Y Z P C Vl Er) as (placed & obs & sky & M & O & Os & Ls & Wc & C1 & C2 & C3 & C4 & Co).
  assert (G : get_num "DISTANCE" (pc_data cat) = Ok (map (fun x => fst (fst x)) sky)) by (unfold get_num; unfold column in C2; rewrite C2; reflexivity).
  rewrite G in H. cbn [bind] in H. rewrite map_length, map_map in H. set (cat1 := with_data cat _) in H.
  set (z0 := map (fun x => i_d2z i (fst (fst x))) sky) in *.
  assert (W1 : rows_ok n cat1).
  { intros nm x I. unfold cat1 in I. cbn [with_data pc_data] in I. apply set_col_In in I. destruct I as [ [_ ->]|I]; [cbn; unfold z0; rewrite map_length; lia|exact (Wc nm x I)]. }
  assert (Z1 : column cat1 "Z" = Some (ColS z0)) by (unfold column, cat1; cbn [with_data pc_data]; rewrite set_col_lookup; reflexivity).
  assert (O1 : forall nm, nm <> "Z"%string -> column cat1 nm = column cat nm) by (intros nm N; unfold column, cat1; cbn [with_data pc_data]; rewrite set_col_lookup; apply String.eqb_neq in N; rewrite N; reflexivity).
  destruct (radial_rows _ _ _ _ _ _ _ _ _ _ H) as [ [m Em] (mask & cm & Sel)].
  destruct (C67_radial (i_make i) (i_fuel i) (i_distance i) (i_table i) (i_zmin i) (i_zmax i) (Some (i_smear i (seed + 13)%Z)) (numbers (i_mask i seed) (List.length sky)) cat1 n z0 m W1 Z1) as (z & c2 & all & E & Smz & (S1 & N1 & K1) & I1); auto.
  { unfold numbers. rewrite map_length, seq_length. auto. }
  { intros f Ef. injection Ef as <-. apply Sm. }
  rewrite E in H. injection H as ->. cbn [smeared] in Smz. destruct Smz as [Lz Vz].
  assert (Lz0 : List.length z0 = n) by (unfold z0; rewrite map_length; auto).
  assert (R1 : forall k, In k all -> (k < n)%nat) by (intros k I; apply I1 in I; tauto).
  set (cz := with_z (Some (i_smear i (seed + 13)%Z)) cat1 z) in *.
  assert (Zz : column cz "Z" = Some (ColS z)) by (unfold column, cz; cbn [with_z with_data pc_data]; rewrite set_col_lookup; reflexivity).
  assert (Oz : forall nm, nm <> "Z"%string -> column cz nm = column cat1 nm) by (intros nm N; unfold column, cz; cbn [with_z with_data pc_data]; rewrite set_col_lookup; apply String.eqb_neq in N; rewrite N; reflexivity).
  assert (Cra : column cutsky "RA" = Some (ColS (pick all (map (fun x => snd (fst x)) sky)))) by (apply (K1 "RA"%string (ColS _)); rewrite Oz, O1 by discriminate; exact C3).
  assert (Cdec : column cutsky "DEC" = Some (ColS (pick all (map snd sky)))) by (apply (K1 "DEC"%string (ColS _)); rewrite Oz, O1 by discriminate; exact C4).
  destruct (footprint_ok inside i region cutsky _ _ c' px A Cra Cdec F) as [F1 F2]. rewrite !pick_map, combine_maps in F1, F2.
  set (dirs := fun x : R * R * R => (snd (fst x), snd x)) in *. set (mask2 := map (surveyed inside i region) (map dirs (pick all sky))) in *.
  assert (Lk : List.length mask2 = List.length all) by (unfold mask2; rewrite !map_length; apply pick_length; rewrite Ls; auto).
  pose proof (select_rows_ok _ _ _ F1) as Wk. rewrite Lk in Wk.
  destruct (select_rows_spec mask2 cutsky (List.length all) Lk Wk) as (c3 & E3 & N3 & _ & _ & _ & _ & K3 & K3'). rewrite F1 in E3. injection E3 as <-.
  assert (Px : px = pick (trues mask2) (map (pixel_of (i_regressis i)) (map dirs (pick all sky)))).
  { rewrite select_pick in F2 by (unfold mask2; rewrite !map_length; reflexivity). injection F2 as <-. reflexivity. }
  set (idx := pick (trues mask2) all).
  assert (KK : forall nm x, col_rows x = n -> column cz nm = Some x -> column c' nm = Some (pick_col idx x)).
  { intros nm x Lx Cx. apply K1 in Cx. apply K3 in Cx. rewrite Cx. f_equal. unfold idx. destruct x as [l|l]; cbn [pick_col]; f_equal; apply pick_pick; cbn in Lx; rewrite Lx; auto. }
  assert (Rw : forall nm x, column cat nm = Some x -> col_rows x = n) by (intros nm x Cx; exact (Wc _ _ (lookup_In _ _ _ Cx))).
  exists placed, sky, z, m, idx. split; [exists obs; auto|]. split; [split; [rewrite Lz; lia|]; intros j Hj; apply Vz; lia|]. split; [exact Em|]. split.
  { exists all. split; [exact S1|]. split.
    - destruct (first_column cutsky) as (nm & x & Cx & ->).
      { unfold column in Cra. destruct (pc_data cutsky); [discriminate|easy]. }
      symmetry. pose proof (Wk _ _ (lookup_In _ _ _ Cx)) as L. destruct x; cbn in L; auto.
    - intros j. rewrite I1. unfold passes. rewrite Lz, Lz0. split; intros [Hj B]; split; auto; unfold numbers in *; rewrite nth_indep with (d' := i_mask i seed 0%nat) in * by (rewrite map_length, seq_length; lia); rewrite map_nth, seq_nth in * by lia; auto. }
  split; [apply sorted_pick; [apply trues_from_sorted|exact S1]|]. split.
  { intros j. unfold idx. rewrite pick_In.
    assert (Q : forall k, In k (trues mask2) <-> exists j x, nth_error all k = Some j /\ nth_error sky j = Some x /\ in_survey inside i region (dirs x)).
    { intros k. rewrite trues_In. unfold mask2. rewrite !nth_error_map. rewrite pick_nth_error by (rewrite Ls; auto). split.
      - destruct (nth_error all k) as [j'|] eqn:Ek; [|discriminate]. destruct (nth_error sky j') as [x|] eqn:Ex; [|discriminate]. cbn. intros Q. injection Q as Q. apply surveyed_ok in Q. eauto.
      - intros (j' & x & -> & -> & Q). cbn. f_equal. apply surveyed_ok. exact Q. }
    split.
    - intros (k & I & Ek). apply Q in I. destruct I as (j' & x & Ek' & Ex & S). rewrite Ek in Ek'. injection Ek' as <-. split.
      + apply nth_error_In in Ek. apply I1 in Ek. destruct Ek as [Hj B]. unfold passes. rewrite Lz, Lz0. split; auto. unfold numbers in B. rewrite nth_indep with (d' := i_mask i seed 0%nat) in B by (rewrite map_length, seq_length; lia). rewrite map_nth, seq_nth in B by lia. exact B.
      + destruct x as [[d a] e]. exists d, a, e. split; auto.
    - intros [ [Hj B] (d & a & e & Ex & S)]. rewrite Lz, Lz0 in Hj. assert (I : In j all).
      { apply I1. split; auto. unfold numbers. rewrite nth_indep with (d' := i_mask i seed 0%nat) by (rewrite map_length, seq_length; lia). rewrite map_nth, seq_nth by lia. exact B. }
      apply In_nth_error in I. destruct I as [k Ek]. exists k. split; auto. apply Q. exists j, (d, a, e). auto. }
  split.
  { intros name x Nn Cx. cbn [t_data]. rewrite columns_filter. cbn in Nn. destruct (String.eqb_spec name "RSDPosition"); [subst; exfalso; tauto|].
    assert (Cc : column cat name = Some x) by (rewrite Co; auto; cbn; tauto). apply KK; [eauto|]. rewrite Oz, O1 by (intros ->; tauto). exact Cc. }
  cbn [t_data t_hpx]. rewrite !columns_filter. cbn [String.eqb Ascii.eqb Bool.eqb]. split; [reflexivity|].
  split; [apply (KK "DISTANCE"%string (ColS _)); [cbn; rewrite map_length; auto|rewrite Oz, O1 by discriminate; exact C2]|].
  split; [apply (KK "RA"%string (ColS _)); [cbn; rewrite map_length; auto|rewrite Oz, O1 by discriminate; exact C3]|].
  split; [apply (KK "DEC"%string (ColS _)); [cbn; rewrite map_length; auto|rewrite Oz, O1 by discriminate; exact C4]|].
  split; [apply (KK "Z"%string (ColS _)); [cbn; lia|exact Zz]|].
  rewrite Px, map_map, <- pick_map. unfold idx. apply pick_pick. rewrite map_length, Ls. auto.
Qed.
