(** Property C100: the DESI cut-sky script. *)
Require Import Reals Lra Lia ZArith String Ascii List Sorted Bool FunctionalExtensionality.
From Verif Require Import Base Vec3 Isometry_Model Sky_Model Cutsky_Model Cutsky_Spec Cutsky_Proof Cutsky_Thm Box_Model Box_Spec Box_Proof Box_Proof2 Mask_Spec Mask_Model Mask_Proof4 Mask_Thm Sample_Model Sample_Spec Sample_Thm Random_Model Random_Spec Random_Thm Spline_Model Spline_Spec FA_Model Foot_Model Region_Model Script_Model Script_Thm SV3_Model Rosette_Model Rosette_Spec Rosette_Thm Arch_Proof Desi_Model Desi_Spec Desi_Proof Desi_Proof2 Desi_Proof3 Desi_Proof4.
Import ListNotations.
Open Scope R_scope.

(** ** As it is written *)
Lemma written_fails : forall c dmin dmax f ra dec, exists e, rsd_and_cutsky call_written c dmin dmax f ra dec = Err e.
Proof. exact C67_rsd_refuted. Qed.
(** The script stops before its first file, whatever the settings. *)
Theorem C100_as_written_refuted : forall i, exists e, desi_script i = ([], Err e).
Proof.
  intros i. unfold desi_script, desi_script_on. destruct (remap_the_box (i_lattice i) (i_box i)) as [box|e]; [|exists e; reflexivity]. unfold io_bind at 1, io_ret at 1.
  cbn [each desi_regions]. unfold region_step at 1. change (photometric_region_center "N") with (@Ok (R * R) (192.3, 56)). change (seed_of seed_mock desi_regions "N") with (@Ok BinNums.Z 79%Z).
  cbn [io_ret io_bind bind]. unfold region_cutsky. destruct (written_fails box (i_distance i (i_zmin i)) (i_distance i (i_zmax i)) (i_factor i) (fst (192.3, 56)) (snd (192.3, 56))) as (e & ->). exists e. reflexivity.
Qed.
Print Assumptions C100_as_written_refuted.

(** ** As it is meant *)
(** What each region leaves behind, in order, wherever the run stops. *)
Theorem C100_files : forall inside i regions box n fs r, ready i box n -> sky_area (i_desi i) inside -> (forall s z, List.length (i_smear i s z) = List.length z) ->
  splines (i_make i) -> splits (i_split i) -> shares (i_share i) -> NoDup regions -> desi_script_on call_meant i regions = (fs, r) -> left_behind inside i box 0 regions fs r.
Proof.
  intros inside i regions box n fs r Rd A Sm Sp Sl Sh Nd H. unfold desi_script_on in H. destruct Rd as [Eb Rd]. rewrite Eb in H. unfold io_bind at 1, io_ret at 1 in H.
  destruct (each _ regions) as [fs' r'] eqn:E. injection H as <- <-. exact (loop_ok inside i regions box n (conj Eb Rd) A Sm Sp Sl Sh Nd regions [] fs' r' eq_refl E).
Qed.
Print Assumptions C100_files.

(** Names of files, in order; all are there at the end. *)
Lemma step_names : forall call i regions box region fs r, shares (i_share i) -> region_step call i regions box region = (fs, r) ->
  exists rest, (map fst fs ++ rest)%list = region_files i region /\ (r = Ok tt -> rest = []).
Proof.
  intros call i regions box region fs r Sh H. unfold region_step in H.
  do 3 (apply io_step in H; destruct H as [ (? & _ & H)|(? & _ & -> & ->)]; [|exists (region_files i region); split; [reflexivity|discriminate] ]).
  rewrite data_name_ok in H. unfold io_bind at 1 in H. unfold region_files. destruct (i_generate i).
  - destruct (io_bind _ _) as [l' r'] eqn:E in H. injection H as <- <-. apply io_step in E. destruct E as [ (ts & _ & E)|(e & _ & -> & ->)]; [|exists (random_files i region); split; [reflexivity|discriminate] ].
    exists []. split; auto. rewrite app_nil_r. cbn [List.app map fst]. f_equal. unfold write_randoms, is_bigfile in E. destruct (String.eqb (i_fmt i) "bigfile") eqn:Eb.
    + injection E as <- <-. unfold random_files. rewrite Eb. cbn [map fst]. unfold tag. change (programpasses i) with (program_name i). rewrite ?app_assoc_s. reflexivity.
    + injection E as <- <-. rewrite <- (random_names_ok i region Eb). refine (proj1 (map_combine (map (randoms_name i region) (seq 0 nrand_over_data)) (map (take_rows (gather ts)) (i_share i nrand_over_data (List.length (t_hpx (gather ts))))) _)). rewrite !map_length, seq_length. symmetry. apply Sh. unfold nrand_over_data. lia.
  - injection H as <- <-. exists []. split; auto.
Qed.
Theorem C100_names : forall call i regions fs r, shares (i_share i) -> desi_script_on call i regions = (fs, r) ->
  exists rest, (map fst fs ++ rest)%list = flat_map (region_files i) regions /\ (r = Ok tt -> rest = []).
Proof.
  intros call i regions fs r Sh H. unfold desi_script_on in H. apply io_step in H. destruct H as [ (box & _ & H)|(e & _ & -> & ->)]; [|eexists; split; [reflexivity|discriminate] ].
  assert (G : forall l fs r, each (region_step call i regions box) l = (fs, r) -> exists rest, (map fst fs ++ rest)%list = flat_map (region_files i) l /\ (r = Ok tt -> rest = [])); [|exact (G _ _ _ H)].
  clear fs r H. induction l as [|region l IH]; intros fs r H; cbn [each] in H; [injection H as <- <-; exists []; auto|].
  destruct (region_step call i regions box region) as [f1 r1] eqn:Es. destruct (step_names _ _ _ _ _ _ _ Sh Es) as (rest & Q & F). cbn [flat_map]. rewrite <- Q. destruct r1 as [ []|e].
  - rewrite (F eq_refl) in *. unfold io_bind in H. destruct (each _ l) as [f2 r2] eqn:El. injection H as <- <-. destruct (IH _ _ eq_refl) as (rest' & Q' & F'). exists rest'. rewrite map_app, app_nil_r, <- app_assoc, Q'. auto.
  - injection H as <- <-. eexists. rewrite <- app_assoc. split; [reflexivity|discriminate].
Qed.
Print Assumptions C100_names.

(** No file is written twice. *)
Lemma cancel_l : forall a b c : string, (a ++ b)%string = (a ++ c)%string -> b = c.
Proof. induction a as [|x a IH]; cbn; intros b c H; auto. injection H as H. auto. Qed.
Lemma length_s : forall a b, String.length (a ++ b)%string = (String.length a + String.length b)%nat.
Proof. induction a as [|x a IH]; intros b; cbn; auto. Qed.
Lemma cancel_r : forall c a b : string, (a ++ c)%string = (b ++ c)%string -> a = b.
Proof.
  intros c. induction a as [|x a IH]; intros [|y b] H; cbn in H; auto.
  - exfalso. apply (f_equal String.length) in H. cbn in H. rewrite length_s in H. lia.
  - exfalso. apply (f_equal String.length) in H. cbn in H. rewrite length_s in H. lia.
  - injection H as -> H. f_equal. auto.
Qed.
Lemma cancel_digit : forall (x y : ascii) a b, (a ++ String x "")%string = (b ++ String y "")%string -> a = b /\ x = y.
Proof.
  intros x y. induction a as [|u a IH]; intros [|v b] H; cbn in H.
  - injection H as ->. auto.
  - exfalso. injection H as _ H. destruct b; discriminate.
  - exfalso. injection H as _ H. destruct a; discriminate.
  - injection H as -> H. apply IH in H. destruct H as [-> ->]. auto.
Qed.
Lemma joined : forall dir x y f g, path_join dir (String "d" x) = f -> path_join dir (String "r" y) = g -> forall s t, (f ++ s)%string <> (g ++ t)%string.
Proof.
  intros dir x y f g <- <- s t H. unfold path_join in H. destruct dir as [|c dir]; [discriminate|]. destruct (String.eqb _ _); rewrite ?app_assoc_s in H; apply cancel_l in H; discriminate.
Qed.
Lemma random_name_inj : forall p q x y a b s, (p ++ q ++ a ++ "-" ++ String x "" ++ s)%string = (p ++ q ++ b ++ "-" ++ String y "" ++ s)%string -> a = b /\ x = y.
Proof.
  intros p q x y a b s H. do 2 apply cancel_l in H. rewrite <- !app_assoc_s in H. apply cancel_r in H. apply cancel_digit in H. destruct H as [H ->]. apply cancel_r in H. auto.
Qed.
Lemma random_file_form : forall i region f, In f (random_files i region) ->
  (f = path_join (i_outdir i) "randoms-cutsky" ++ ("/" ++ i_release i ++ "-" ++ program_name i ++ "-") ++ region ++ "/")%string /\ String.eqb (i_fmt i) "bigfile" = true \/
  (exists x, In x ["0"; "1"; "2"; "3"; "4"; "5"; "6"; "7"; "8"; "9"]%char /\ f = path_join (i_outdir i) "randoms-cutsky" ++ ("-" ++ i_release i ++ "-" ++ program_name i ++ "-") ++ region ++ "-" ++ String x "" ++ "." ++ i_fmt i)%string /\ String.eqb (i_fmt i) "bigfile" = false.
Proof.
  intros i region f H. unfold random_files in H. destruct (String.eqb (i_fmt i) "bigfile"); [left|right]; split; auto.
  - destruct H as [<-|[] ]. rewrite ?app_assoc_s. reflexivity.
  - apply in_map_iff in H. destruct H as (k & <- & I). cbn in I.
    repeat (destruct I as [<-|I]; [match goal with |- context [ (String ?x "" ++ "." ++ _)%string ] => exists x end; split; [cbn; tauto|rewrite ?app_assoc_s; reflexivity]|]). destruct I.
Qed.
Lemma files_apart : forall i r1 r2 f, In f (region_files i r1) -> In f (region_files i r2) -> r1 = r2.
Proof.
  intros i r1 r2 f H1 H2. assert (D : forall region, In f (region_files i region) -> f = data_file i region \/ In f (random_files i region)).
  { intros region [<-|H]; auto. destruct (i_generate i); [auto|destruct H]. }
  assert (Cross : forall a b, data_file i a = f -> In f (random_files i b) -> False).
  { intros a b Ea Eb. unfold data_file in Ea. apply random_file_form in Eb. destruct Eb as [ [Eb _]|[ (x & _ & Eb) _] ]; rewrite Eb in Ea; exact (joined (i_outdir i) "ata-cutsky" "andoms-cutsky" _ _ eq_refl eq_refl _ _ Ea). }
  apply D in H1. apply D in H2. destruct H1 as [->|H1], H2 as [H2|H2].
  - unfold data_file in H2. apply cancel_l in H2. destruct (String.eqb _ _); rewrite <- !app_assoc_s in H2; repeat (apply cancel_r in H2); repeat (apply cancel_l in H2); exact H2.
  - exfalso. exact (Cross _ _ eq_refl H2).
  - exfalso. exact (Cross _ _ (eq_sym H2) H1).
  - apply random_file_form in H1. apply random_file_form in H2. destruct H1 as [ [-> E1]|[ (x & _ & ->) E1] ], H2 as [ [H2 E2]|[ (y & _ & H2) E2] ]; try congruence.
    + do 2 apply cancel_l in H2. apply cancel_r in H2. exact H2.
    + apply random_name_inj in H2. tauto.
Qed.
Theorem C100_distinct : forall i regions, NoDup regions -> NoDup (flat_map (region_files i) regions).
Proof.
  intros i. induction regions as [|region l IH]; intros Nd; [constructor|]. inversion Nd as [|? ? Ni Nd']; subst. cbn [flat_map].
  assert (One : NoDup (region_files i region)).
  { unfold region_files. constructor.
    - intros H. destruct (i_generate i); [|exact H]. apply random_file_form in H. unfold data_file in H. destruct H as [ [H _]|[ (x & _ & H) _] ]; exact (joined (i_outdir i) "ata-cutsky" "andoms-cutsky" _ _ eq_refl eq_refl _ _ H).
    - destruct (i_generate i); [|constructor]. unfold random_files. destruct (String.eqb _ _); [repeat constructor; auto|].
      assert (K : forall l : list ascii, NoDup l -> NoDup (map (fun k => path_join (i_outdir i) "randoms-cutsky" ++ "-" ++ i_release i ++ "-" ++ program_name i ++ "-" ++ region ++ "-" ++ k ++ "." ++ i_fmt i)%string (map (fun x => String x "") l))).
      { clear. induction l as [|x l IH]; intros H; [constructor|]. inversion H as [|? ? N H']; subst. cbn [map]. constructor; auto. intros I. rewrite map_map in I. apply in_map_iff in I. destruct I as (y & E & I). apply N.
        replace x with y; auto. destruct (random_name_inj (path_join (i_outdir i) "randoms-cutsky") ("-" ++ i_release i ++ "-" ++ program_name i ++ "-") y x region region ("." ++ i_fmt i)) as [_ Q]; auto. rewrite !app_assoc_s. exact E. }
      apply (K ["0"; "1"; "2"; "3"; "4"; "5"; "6"; "7"; "8"; "9"]%char). repeat (constructor; [cbn; intros Q; repeat (destruct Q as [Q|Q]; [discriminate|]); exact Q|]). constructor. }
  clear Nd. revert One. assert (Ap : forall f, In f (region_files i region) -> ~ In f (flat_map (region_files i) l)).
  { intros f H I. apply in_flat_map in I. destruct I as (r2 & I2 & H2). apply Ni. rewrite (files_apart i region r2 f H H2). exact I2. }
  revert Ap. specialize (IH Nd'). revert IH. generalize (flat_map (region_files i) l) as m, (region_files i region) as k. clear. intros m k Hm. induction k as [|x k IH]; intros Ap Nk; auto.
  inversion Nk as [|? ? N Nk']; subst. cbn [List.app]. constructor; [intros I; apply in_app_or in I; destruct I as [I|I]; [tauto|exact (Ap x (or_introl eq_refl) I)]|]. apply IH; auto. intros f I. apply Ap. right. auto.
Qed.
Print Assumptions C100_distinct.

(** Redshifts in the files are in the range, if no number of the mask is exactly 0. *)
Theorem C100_range : forall inside i box region ra dec seed many t, splines (i_make i) -> data_of inside i box region ra dec seed many t -> (forall j, 0 < i_mask i seed j) ->
  exists z, lookup "Z" (t_data t) = Some (ColS z) /\ forall x, In x z -> i_zmin i <= x <= i_zmax i.
Proof.
  intros inside i box region ra dec seed many t Sp (placed & sky & z & m & idx & _ & _ & Em & _ & _ & Ix & _ & _ & _ & _ & _ & Ez & _) U. exists (pick idx z). split; [exact Ez|].
  intros x I. unfold pick in I. apply in_flat_map in I. destruct I as (j & Ij & I). apply Ix in Ij. destruct Ij as ([Lj P] & _). destruct (nth_error z j) as [y|] eqn:Ey; [|destruct I]. destruct I as [<-|[] ].
  rewrite (nth_error_nth z j 0 Ey) in P. exact (C67_range _ _ _ _ _ _ _ _ _ Sp Em (U j) P).
Qed.
Print Assumptions C100_range.
