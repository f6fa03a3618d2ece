(** Properties C43, C44 and C46: radial blinding and formats of positions. Vocabulary in Blind_Spec.v. *)
Require Import Reals ZArith List Bool String Lra Lia Permutation.
From Verif Require Import Base Vec3 Isometry_Model Isometry_Spec Isometry_Proof Sky_Model Sky_Spec Sky_Proof Sky_Thm Cutsky_Model Box_Model Rsd_Model Rsd_Spec Rsd_Proof Density_Proof Mock_Model Mock_Spec Mock_Thm Mock_Thm2 Blind_Model Blind_Spec.
Import ListNotations.
Open Scope R_scope.

Lemma zip3_map : forall {A B} (f : R -> R -> R -> A) (a b c : B -> R) l, zip3 f (map a l) (map b l) (map c l) = map (fun s => f (a s) (b s) (c s)) l.
Proof. intros A B f a b c. induction l as [|x l IH]; cbn; [auto|rewrite IH; auto]. Qed.
Lemma map_result_ok : forall {A B} (f : A -> result B) (g : A -> B) l, Forall (fun a => f a = Ok (g a)) l -> map_result f l = Ok (map g l).
Proof. intros A B f g l H. induction H as [|a l H _ IH]; cbn; [auto|]. rewrite H. cbn [bind]. rewrite IH. auto. Qed.
Lemma map_result_forall2 : forall {A B} (f : A -> result B) l r, map_result f l = Ok r -> Forall2 (fun a b => f a = Ok b) l r.
Proof.
  intros A B f. induction l as [|a l IH]; intros r H; cbn in H; [injection H as <-; constructor|].
  destruct (f a) as [b|] eqn:E; [|discriminate]. cbn [bind] in H. destruct (map_result f l) as [r'|] eqn:M; [|discriminate]. cbn [bind] in H. injection H as <-. constructor; auto.
Qed.
Lemma f2_length : forall {A B} (rel : A -> B -> Prop) a b, Forall2 rel a b -> List.length a = List.length b.
Proof. intros A B rel a b H. induction H; cbn; auto. Qed.
Lemma map_result_length : forall {A B} (f : A -> result B) l r, map_result f l = Ok r -> List.length r = List.length l.
Proof. intros A B f l r H. symmetry. eapply f2_length. eapply map_result_forall2; eauto. Qed.
Lemma ok_inj_p : forall {A} (a b : A), Ok a = Ok b -> a = b.
Proof. intros A a b H. congruence. Qed.

(** Reading catalogs. *)
Definition cast (dtype : option ftype) (d : ftype) : ftype := match dtype with Some d => d | None => d end.
Lemma fmt_pos : forall dtype d D l, floating (cast dtype d) = true -> format_positions "pos" dtype D (as_pos d l) = Ok l.
Proof.
  intros dtype d D l F. unfold format_positions, as_pos, as_array. cbn [String.eqb Ascii.eqb Bool.eqb bind]. fold (cast dtype d). rewrite F. cbn [negb Nat.eqb]. f_equal. rewrite map_map. rewrite <- (map_id l) at 2. apply map_ext. intros [x y z]. auto.
Qed.
Lemma same_type_refl : forall d, same_type d d = true.
Proof. intros []; auto. Qed.
Lemma fmt_cols : forall {A} t dtype d D (l : list A) (a b c : A -> R) p, t <> "pos"%string -> floating (cast dtype d) = true -> as_columns p = [(d, map a l); (d, map b l); (d, map c l)] ->
  format_positions t dtype D p =
    if String.eqb t "rdd" then Ok (map (fun s => sky_to_cartesian true None (NFloat (c s)) (NFloat (a s)) (NFloat (b s))) l) else
    if String.eqb t "rdz" then Ok (map (fun s => sky_to_cartesian true None (NFloat (D (c s))) (NFloat (a s)) (NFloat (b s))) l) else
    if String.eqb t "xyz" then Ok (map (fun s => V (a s) (b s) (c s)) l) else Err ValueError.
Proof.
  intros A t dtype d D l a b c p T F E. unfold format_positions. destruct (String.eqb_spec t "pos"); [contradiction|]. rewrite E. cbn [map fst snd]. fold (cast dtype d). rewrite F. cbn [negb forallb snd fst].
  rewrite !map_length, Nat.eqb_refl, same_type_refl. cbn [andb negb]. rewrite !zip3_map. auto.
Qed.
Lemma fmt_xyz : forall dtype d D l, floating (cast dtype d) = true -> format_positions "xyz" dtype D (as_xyz d l) = Ok l.
Proof.
  intros dtype d D l F. rewrite (fmt_cols "xyz" dtype d D l vx vy vz) by (auto; discriminate). cbn. f_equal. rewrite <- (map_id l) at 2. apply map_ext. intros [x y z]. auto.
Qed.
Definition s2c (distance : R -> R) (s : R * R * R) : vec := sky_to_cartesian true None (NFloat (distance (snd s))) (NFloat (fst (fst s))) (NFloat (snd (fst s))).
Lemma fmt_rdd : forall dtype d D l, floating (cast dtype d) = true -> format_positions "rdd" dtype D (as_sky d l) = Ok (map (s2c (fun r => r)) l).
Proof. intros dtype d D l F. rewrite (fmt_cols "rdd" dtype d D l (fun s => fst (fst s)) (fun s => snd (fst s)) snd) by (auto; discriminate). auto. Qed.
Lemma fmt_rdz : forall dtype d D l, floating (cast dtype d) = true -> format_positions "rdz" dtype D (as_sky d l) = Ok (map (s2c D) l).
Proof. intros dtype d D l F. rewrite (fmt_cols "rdz" dtype d D l (fun s => fst (fst s)) (fun s => snd (fst s)) snd) by (auto; discriminate). auto. Qed.
Lemma c2s_s2c : forall D ra dec r, 0 <= ra < 360 -> -90 < dec < 90 -> 0 < D r -> cartesian_to_sky true (s2c D (ra, dec, r)) = Ok (D r, ra, dec).
Proof. intros D ra dec r H1 H2 H3. apply C07_sky_cartesian_sky; unfold full_turn; auto; lra. Qed.
Lemma sky_rows_ok : forall D l, Forall (fun s : R * R * R => 0 <= fst (fst s) < 360 /\ -90 < snd (fst s) < 90 /\ 0 < D (snd s)) l ->
  sky_rows (map (s2c D) l) = Ok (map (fun s => (D (snd s), fst (fst s), snd (fst s))) l).
Proof.
  intros D l H. unfold sky_rows. induction H as [|[[ra dec] r] l (H1 & H2 & H3) _ IH]; cbn [map map_result]; auto. cbn in H1, H2, H3. rewrite c2s_s2c by auto. cbn [bind]. rewrite IH. auto.
Qed.
(** C46. Positions written in the format they were read in are the same; output arrays are labelled F8, whatever their float type. *)
Theorem C46_pos : forall dtype d D d2z l, floating (cast dtype d) = true ->
  bind (format_positions "pos" dtype D (as_pos d l)) (format_output_positions "pos" d2z) = Ok (as_pos F8 l).
Proof. intros. rewrite fmt_pos; auto. Qed.
Print Assumptions C46_pos.
Theorem C46_xyz : forall dtype d D d2z l, floating (cast dtype d) = true ->
  bind (format_positions "xyz" dtype D (as_xyz d l)) (format_output_positions "xyz" d2z) = Ok (as_xyz F8 l).
Proof. intros. rewrite fmt_xyz; auto. Qed.
Print Assumptions C46_xyz.
Theorem C46_rdd : forall dtype d D d2z l, floating (cast dtype d) = true -> Forall on_sky l ->
  bind (format_positions "rdd" dtype D (as_sky d l)) (format_output_positions "rdd" d2z) = Ok (as_sky F8 l).
Proof.
  intros dtype d D d2z l F H. rewrite fmt_rdd by auto. cbn [bind]. unfold format_output_positions. cbn [String.eqb Ascii.eqb Bool.eqb]. rewrite sky_rows_ok.
  - cbn [bind]. rewrite !map_map. auto.
  - eapply Forall_impl; [|exact H]. intros [[ra dec] r]. cbn. tauto.
Qed.
Print Assumptions C46_rdd.
(** With redshifts: when the inverse of the distance relation is exact at these redshifts. *)
Theorem C46_rdz : forall dtype d D d2z l, floating (cast dtype d) = true -> Forall on_sky l -> Forall (fun s => 0 < D (snd s) /\ inverse_at d2z D (snd s)) l ->
  bind (format_positions "rdz" dtype D (as_sky d l)) (format_output_positions "rdz" d2z) = Ok (as_sky F8 l).
Proof.
  intros dtype d D d2z l F H HD. rewrite fmt_rdz by auto. cbn [bind]. unfold format_output_positions. cbn [String.eqb Ascii.eqb Bool.eqb]. rewrite sky_rows_ok.
  - cbn [bind]. rewrite !map_map. cbn. rewrite (map_result_ok _ (fun d => match d2z d with Ok z => z | Err _ => 0 end)).
    + cbn [bind]. rewrite map_map. unfold as_sky. do 4 f_equal. f_equal. f_equal. apply map_ext_in. intros s I0. rewrite Forall_forall in HD. destruct (HD s I0) as [_ HI]. unfold inverse_at in HI. rewrite HI. auto.
    + rewrite Forall_map. eapply Forall_impl; [|exact HD]. intros s [_ HI]. unfold inverse_at in HI. rewrite HI. auto.
  - rewrite Forall_forall in H, HD |- *. intros s I0. destruct (HD s I0) as [HP _]. specialize (H s I0). destruct s as [[ra dec] r]. cbn in *. tauto.
Qed.
Print Assumptions C46_rdz.
(** Integer arrays, arrays of different sizes or types, a wrong number of columns, and unknown formats are refused. *)
Theorem C46_errors : forall t dtype D,
  (forall l, floating (cast dtype Int) = false -> l <> [] -> format_positions "pos" dtype D (as_pos Int l) = Err ValueError) /\
  (forall d w rows, w <> 3%nat -> format_positions "pos" dtype D (Rows d w rows) = Err ValueError) /\
  (forall cols, t <> "pos"%string -> cols <> [] -> List.length cols <> 3%nat -> format_positions t dtype D (Cols cols) = Err ValueError) /\
  (forall d1 d2 d3 c1 c2 c3, t <> "pos"%string -> ~ (List.length c1 = List.length c2 /\ List.length c1 = List.length c3) -> format_positions t dtype D (Cols [(d1, c1); (d2, c2); (d3, c3)]) = Err ValueError) /\
  (forall d1 d2 d3 c1 c2 c3, t <> "pos"%string -> ~ (cast dtype d1 = cast dtype d2 /\ cast dtype d1 = cast dtype d3 /\ cast dtype d1 <> Int) -> format_positions t dtype D (Cols [(d1, c1); (d2, c2); (d3, c3)]) = Err ValueError) /\
  (forall cols, ~ In t ["pos"; "xyz"; "rdd"; "rdz"]%string -> cols <> [] -> format_positions t dtype D (Cols cols) = Err ValueError).
Proof.
  intros t dtype D. repeat split.
  - intros l F _. unfold format_positions, as_pos, as_array. cbn [String.eqb Ascii.eqb Bool.eqb bind]. fold (cast dtype Int). rewrite F. auto.
  - intros d w rows W. unfold format_positions, as_array. cbn [String.eqb Ascii.eqb Bool.eqb bind]. fold (cast dtype d). destruct (floating (cast dtype d)); auto. apply Nat.eqb_neq in W. cbn [negb]. rewrite W. auto.
  - intros cols T N L. unfold format_positions. destruct (String.eqb_spec t "pos"); [contradiction|]. destruct cols as [|[d1 c1] cols]; [contradiction|]. cbn [as_columns map fst snd].
    destruct (negb (floating _)); auto. destruct (negb (forallb _ _)); auto. destruct cols as [|[d2 c2] [|[d3 c3] [|x cols]]]; cbn in *; auto. lia.
  - intros d1 d2 d3 c1 c2 c3 T N. unfold format_positions. destruct (String.eqb_spec t "pos"); [contradiction|]. cbn [as_columns map fst snd forallb]. destruct (negb (floating _)); auto.
    destruct (Nat.eqb_spec (List.length c2) (List.length c1)); cbn [andb negb]; auto. destruct (Nat.eqb_spec (List.length c3) (List.length c1)); cbn [andb negb]; rewrite ?andb_false_r; auto. exfalso. apply N. auto.
  - intros d1 d2 d3 c1 c2 c3 T N. unfold format_positions. destruct (String.eqb_spec t "pos"); [contradiction|]. cbn [as_columns map fst snd forallb]. fold (cast dtype d1) (cast dtype d2) (cast dtype d3).
    destruct (cast dtype d1), (cast dtype d2), (cast dtype d3); cbn [floating same_type negb]; rewrite ?andb_false_r; cbn [andb negb]; rewrite ?andb_false_r; auto; exfalso; apply N; repeat split; discriminate.
  - intros cols T N. unfold format_positions. cbn in T. destruct (String.eqb_spec t "pos"); [exfalso; intuition|]. destruct cols as [|[d1 c1] cols]; [contradiction|]. cbn [as_columns map fst snd].
    destruct (negb (floating _)); auto. destruct (negb (forallb _ _)); auto. destruct (map _ cols) as [|[d2 c2] [|[d3 c3] [|x xs]]]; auto.
    destruct (String.eqb_spec t "rdd"); [exfalso; intuition|]. destruct (String.eqb_spec t "rdz"); [exfalso; intuition|]. destruct (String.eqb_spec t "xyz"); [exfalso; intuition|]. auto.
Qed.
Print Assumptions C46_errors.

(** Formats of outputs. *)
Lemma zip3_length : forall {A} (f : R -> R -> R -> A) a b c, List.length a = List.length b -> List.length a = List.length c -> List.length (zip3 f a b c) = List.length a.
Proof. intros A f. induction a as [|x a IH]; intros [|y b] [|z c] H1 H2; cbn in *; try lia. rewrite IH; lia. Qed.
Lemma fmt_length : forall t dtype D n p pos, shaped t n p -> format_positions t dtype D p = Ok pos -> List.length pos = n.
Proof.
  intros t dtype D n p pos SH H. unfold shaped in SH. unfold format_positions in H. destruct (String.eqb_spec t "pos").
  - destruct SH as (d & rows & -> & L & _). cbn [as_array bind] in H. destruct (negb (floating _)); [discriminate|]. cbn in H. apply ok_inj_p in H. subst pos. rewrite map_length. auto.
  - destruct SH as (d1 & d2 & d3 & c1 & c2 & c3 & E & L1 & L2 & L3). rewrite E in H. cbn [map fst snd] in H. destruct (negb (floating _)); [discriminate|]. destruct (negb (forallb _ _)); [discriminate|].
    destruct (String.eqb t "rdd"); [|destruct (String.eqb t "rdz"); [|destruct (String.eqb t "xyz")]]; try discriminate; apply ok_inj_p in H; subst pos; rewrite zip3_length; lia.
Qed.
Lemma out_shaped : forall t d2z pos out, In t ["pos"; "xyz"; "rdd"; "rdz"]%string -> format_output_positions t d2z pos = Ok out -> shaped t (List.length pos) out.
Proof.
  intros t d2z pos out I0 H. unfold format_output_positions in H. cbn in I0. destruct I0 as [<-|[<-|[<-|[<-|[]]]]]; unfold shaped; cbn [String.eqb Ascii.eqb Bool.eqb] in *.
  - apply ok_inj_p in H. subst out. exists F8, (map (fun p => [vx p; vy p; vz p]) pos). split; auto. rewrite map_length. split; auto. rewrite Forall_map. apply Forall_forall. auto.
  - apply ok_inj_p in H. subst out. cbn [as_columns map]. do 6 eexists. split; [reflexivity|]. rewrite !map_length. auto.
  - destruct (sky_rows pos) as [s|] eqn:SR; [|discriminate]. cbn [bind] in H. apply ok_inj_p in H. subst out. cbn [as_columns]. do 6 eexists. split; [reflexivity|]. rewrite !map_length. apply map_result_length in SR. auto.
  - destruct (sky_rows pos) as [s|] eqn:SR; [|discriminate]. cbn [bind] in H. destruct (map_result d2z (map sky_dist s)) as [z|] eqn:MZ; [|discriminate]. cbn [bind] in H. apply ok_inj_p in H. subst out. cbn [as_columns]. do 6 eexists. split; [reflexivity|].
    apply map_result_length in SR, MZ. rewrite !map_length in *. lia.
Qed.
Lemma map2_result_length : forall {A B C} (f : A -> B -> result C) a b c, map2_result f a b = Ok c -> List.length c = List.length a /\ List.length a = List.length b.
Proof.
  intros A B C f. induction a as [|x a IH]; intros [|y b] c H; cbn in H; try discriminate; [apply ok_inj_p in H; subst; auto|]. destruct (f x y); [|discriminate]. cbn [bind] in H.
  destruct (map2_result f a b) eqn:E; [|discriminate]. cbn [bind] in H. apply ok_inj_p in H. subst c. destruct (IH _ _ E). cbn. lia.
Qed.
Lemma assign_length : forall {A B} (f : A -> B -> result A) mask values l r, assign f mask values l = Ok r -> List.length r = List.length l.
Proof.
  intros A B f. induction mask as [|b mask IH]; intros values l r H; cbn in H; [apply ok_inj_p in H; subst; auto|]. destruct b, l as [|a l]; try (apply ok_inj_p in H; subst; auto; fail).
  - destruct values as [|v values]; [discriminate|]. destruct (f a v) as [a'|]; [|discriminate]. cbn [bind] in H. destruct (assign f mask values l) as [l'|] eqn:E; [|discriminate]. cbn [bind] in H. apply ok_inj_p in H. subst r. cbn. rewrite (IH _ _ _ E). auto.
  - destruct (assign f mask values l) as [l'|] eqn:E; [|discriminate]. cbn [bind] in H. apply ok_inj_p in H. subst r. cbn. rewrite (IH _ _ _ E). auto.
Qed.
Lemma shaped_sky : forall t t' n p, t <> "pos"%string -> t' <> "pos"%string -> shaped t n p -> shaped t' n p.
Proof. intros t t' n p T T' H. unfold shaped in *. destruct (String.eqb_spec t "pos"); [contradiction|]. destruct (String.eqb_spec t' "pos"); [contradiction|]. auto. Qed.
(** Alcock-Paczynski, shuffle and redshift-space blinding return positions in the format of the input, one per object. *)
Theorem C46_ap_format : forall fid blind d2z t dtype p out n, In t ["pos"; "xyz"; "rdd"; "rdz"]%string -> shaped t n p -> ap fid blind d2z t dtype p = Ok out -> shaped t n out.
Proof.
  intros fid blind d2z t dtype p out n I0 SH H. unfold ap in H. destruct (format_positions _ dtype (c_distance fid) p) as [pos|] eqn:FP; [|discriminate]. cbn [bind] in H.
  destruct (map_result _ pos) as [pos'|] eqn:M; [|discriminate]. cbn [bind] in H. apply map_result_length in M.
  assert (L : List.length pos = n). { eapply fmt_length; [|exact FP]. destruct (String.eqb_spec t "rdz"); auto. subst t. eapply shaped_sky; [| |exact SH]; discriminate. }
  rewrite <- L, <- M. eapply out_shaped; eauto.
Qed.
Print Assumptions C46_ap_format.
Theorem C46_shuffle_format : forall fid blind z t dtype u permute p out n, In t ["pos"; "xyz"; "rdd"; "rdz"]%string -> shaped t n p -> shuffle fid blind z t dtype u permute p = Ok out -> shaped t n out.
Proof.
  intros fid blind z t dtype u permute p out n I0 SH H. unfold shuffle in H. set (sky := (String.eqb t "rdd" || String.eqb t "rdz")%bool) in *. set (t' := if sky then "xyz"%string else t) in *.
  assert (SH' : shaped t' n p). { unfold t'. destruct sky eqn:Q; auto. apply (shaped_sky t); auto; [|discriminate]. unfold sky in Q. apply orb_true_iff in Q. rewrite !String.eqb_eq in Q. destruct Q; subst t; discriminate. }
  destruct (format_positions t' dtype (fun z => z) p) as [pos|] eqn:FP; [|discriminate]. cbn [bind] in H. pose proof (fmt_length _ _ _ _ _ _ SH' FP) as L.
  destruct (get_from_cosmo blind "f" None); [|discriminate]. cbn [bind] in H. destruct (get_from_cosmo fid "f" z); [|discriminate]. cbn [bind] in H. destruct (fdiv _ _); [|discriminate]. cbn [bind] in H. destruct (Rltb _ _); [discriminate|].
  destruct (shuffle_parts _ _ _ _ _) as [o|] eqn:SP; [|discriminate]. cbn [bind] in H. unfold shuffle_parts in SP. cbn [map combine] in SP. cbn [chunks combine map_result fst snd] in SP.
  destruct (assign _ _ _ pos) as [q|] eqn:EA; [|discriminate]. cbn [bind] in SP. apply ok_inj_p in SP. subst o. cbn [List.concat] in H. rewrite app_nil_r in H. apply assign_length in EA.
  assert (S1 : shaped t' (List.length q) out). { eapply out_shaped; [|exact H]. unfold t'. destruct sky; cbn; tauto. }
  rewrite EA, L in S1. unfold t' in S1. destruct sky eqn:Q; auto. unfold sky in Q. apply orb_true_iff in Q. rewrite !String.eqb_eq in Q. apply (shaped_sky "xyz"); auto; destruct Q; subst; discriminate.
Qed.
Print Assumptions C46_shuffle_format.
Theorem C46_rsd_format : forall fid blind z d2z t dtype recon p out n, In t ["pos"; "xyz"; "rdd"; "rdz"]%string -> shaped t n p -> rsd fid blind z d2z t dtype recon p = Ok out -> shaped t n out.
Proof.
  intros fid blind z d2z t dtype recon p out n I0 SH H. unfold rsd in H. destruct (format_positions t dtype (c_distance fid) p) as [pos|] eqn:FP; [|discriminate]. cbn [bind] in H. pose proof (fmt_length _ _ _ _ _ _ SH FP) as L.
  destruct (match recon with ByName run => _ | Instance r => _ end) as [rc|]; [|discriminate]. cbn [bind] in H. destruct (get_from_cosmo blind "f" None); [|discriminate]. cbn [bind] in H. destruct (fdiv _ _); [|discriminate]. cbn [bind] in H.
  destruct (map2_result _ _ _) as [q|] eqn:M; [|discriminate]. cbn [bind] in H. apply map2_result_length in M. destruct M as [M _]. rewrite <- L, <- M. eapply out_shaped; eauto.
Qed.
Print Assumptions C46_rsd_format.
(** Non-Gaussianity blinding of positions always returns an array of Cartesian positions, one row per object: for a catalog of sky coordinates, this is another format. *)
Definition toy_png (bias : R) : png_input :=
  Png (fun n i => Z.of_nat i) (V 1 1 1) (I 1 1 1) (fun _ => Cx 0 0) bias 15 15 (fun _ pos => map (fun _ => 0) pos) (fun pos => map (fun _ => 1) pos) (fun _ => 1) (fun _ => 1) 1.
Definition toy_blind (fnl : R) : cosmology :=
  Cosmology 1 (fun _ => Err AttributeError) (fun _ => Err AttributeError) [("f", 1 / 2); ("fnl", fnl)]%string (fun _ => 1) (fun _ => 1 / 2) (fun _ => Err AttributeError) (fun z => z).
Theorem C46_png_positions_refuted : exists g blind t p pos out n, In t ["pos"; "xyz"; "rdd"; "rdz"]%string /\ shaped t n p /\ format_positions t None (c_distance blind) p = Ok pos /\ png_positions true g blind false pos = Ok out /\ ~ shaped t n out.
Proof.
  exists (toy_png 2), (toy_blind 1), "rdd"%string, (as_sky F8 [(10, 20, 100)]). eexists. eexists. exists 1%nat. split; [cbn; tauto|]. split; [unfold shaped; cbn; do 6 eexists; split; [reflexivity|auto]|].
  split; [apply (fmt_rdd None F8 (fun z => z) [(10, 20, 100)]); auto|]. split.
  - unfold png_positions, get_from_cosmo. cbn. unfold mean_vec. cbn. unfold fdiv. destruct (Req_EM_T 1 0); [lra|]. cbn. reflexivity.
  - unfold shaped. cbn. intros (d1 & d2 & d3 & c1 & c2 & c3 & E & _). discriminate.
Qed.
Print Assumptions C46_png_positions_refuted.
Example C46_case : floating (cast None F4) = true /\ Forall on_sky [(10, 20, 100); (350, -60, 1000)] /\ Forall (fun s => 0 < (fun z => 3000 * z) (snd s) /\ inverse_at (fun d => Ok (d / 3000)) (fun z => 3000 * z) (snd s)) [(10, 20, 1 / 2)] /\ shaped "rdd" 2 (as_sky F4 [(10, 20, 100); (350, -60, 1000)]).
Proof.
  split; auto. split; [repeat constructor; lra|]. split; [repeat constructor; cbn; [lra|]; unfold inverse_at; f_equal; field|]. unfold shaped. cbn. do 6 eexists. split; [reflexivity|auto].
Qed.

(** C43. One object. *)
Lemma dist3_origin : forall p, dist3 p vzero = vnorm p.
Proof. intros [x y z]. unfold dist3, vnorm, vdot, vzero. cbn. f_equal. ring. Qed.
Lemma c2s_dist : forall p x ra dec, cartesian_to_sky true p = Ok (x, ra, dec) -> x = vnorm p /\ 0 < x.
Proof.
  intros p x ra dec H. unfold cartesian_to_sky in H. rewrite distance_vnorm in H. destruct (Req_EM_T (vnorm p) 0); [discriminate|]. injection H as <- _ _. split; auto.
  assert (0 <= vnorm p) by apply sqrt_pos. lra.
Qed.
Lemma ap_one_ok : forall (rdz : bool) d2z B p x ra dec z, cartesian_to_sky true p = Ok (x, ra, dec) -> (if rdz then z = x else d2z x = Ok z) -> ap_one rdz d2z B p = Ok (vscale (B z / x) p).
Proof.
  intros rdz d2z B p x ra dec z H HZ. unfold ap_one. rewrite H. cbn [bind sky_dist fst]. destruct rdz.
  - subst z. cbn [bind]. f_equal. unfold vscale. f_equal; unfold Rdiv; ring.
  - rewrite HZ. cbn [bind]. f_equal. unfold vscale. f_equal; unfold Rdiv; ring.
Qed.
Lemma ap_pos : forall d2z B z l, Forall (fun p => p <> vzero /\ d2z (dist3 p vzero) = Ok (z p) /\ 0 < B (z p)) l ->
  exists l', map_result (ap_one false d2z B) l = Ok l' /\ each (fun p q => same_direction p q /\ dist3 q vzero = B (z p)) l l'.
Proof.
  intros d2z B z l H. exists (map (fun p => vscale (B (z p) / dist3 p vzero) p) l). split.
  - apply map_result_ok. eapply Forall_impl; [|exact H]. intros p (P & Z0 & BP). destruct (c2s_ok true p P) as (x & ra & dec & E). destruct (c2s_dist _ _ _ _ E) as [X XP]. rewrite dist3_origin, <- X in *. eapply ap_one_ok; eauto.
  - induction H as [|p l (P & Z0 & BP) _ IH]; cbn [map]; constructor; auto. pose proof (vnorm_pos p P) as VP. rewrite dist3_origin. assert (K : 0 < B (z p) / vnorm p) by (apply Rdiv_lt_0_compat; auto). split; [exists (B (z p) / vnorm p); auto|].
    rewrite dist3_origin, vnorm_scale, Rabs_pos_eq by lra. field. lra.
Qed.
(** Objects are moved along the line of sight, to the distance of their redshift in the blinded cosmology. Cartesian positions. *)
Theorem C43_cartesian : forall fid blind d2z dtype d z l, floating (cast dtype d) = true ->
  Forall (fun p => p <> vzero /\ d2z (c_distance fid) (dist3 p vzero) = Ok (z p) /\ 0 < c_distance blind (z p)) l ->
  exists l', ap fid blind d2z "pos" dtype (as_pos d l) = Ok (as_pos F8 l') /\ ap fid blind d2z "xyz" dtype (as_xyz d l) = Ok (as_xyz F8 l') /\
    each (fun p q => same_direction p q /\ dist3 q vzero = c_distance blind (z p)) l l'.
Proof.
  intros fid blind d2z dtype d z l F H. destruct (ap_pos _ _ _ _ H) as (l' & M & EA). exists l'. unfold ap. cbn [String.eqb Ascii.eqb Bool.eqb]. rewrite fmt_pos, fmt_xyz by auto. cbn [bind]. rewrite M. cbn [bind]. auto.
Qed.
Print Assumptions C43_cartesian.
(** The angular position of a moved object is the same. *)
Theorem C43_angles : forall p q d ra dec, same_direction p q -> cartesian_to_sky true p = Ok (d, ra, dec) -> exists d', cartesian_to_sky true q = Ok (d', ra, dec).
Proof. intros p q d ra dec (k & K & <-) H. exists (k * d). apply c2s_scale; auto. Qed.
Print Assumptions C43_angles.
Lemma ap_sky : forall (rdz : bool) d2z B z l, Forall (fun s => on_sky s /\ (if rdz then z s = snd s else d2z (snd s) = Ok (z s)) /\ 0 < B (z s)) l ->
  map_result (ap_one rdz d2z B) (map (s2c (fun r => r)) l) = Ok (map (fun s => s2c (fun r => r) (fst s, B (z s))) l).
Proof.
  intros rdz d2z B z l H. rewrite (map_result_ok _ (fun p => match ap_one rdz d2z B p with Ok q => q | Err _ => p end)).
  - f_equal. rewrite map_map. apply map_ext_in. intros s I0. rewrite Forall_forall in H. destruct (H s I0) as (OS & Z0 & BP). destruct s as [[ra dec] r]. destruct OS as (O1 & O2 & O3).
    rewrite (ap_one_ok rdz d2z B _ r ra dec (z (ra, dec, r))); [|apply (c2s_s2c (fun r => r)); auto|destruct rdz; auto]. unfold s2c, sky_to_cartesian. cbn [fst snd num_val]. set (u := V _ _ _). change (V _ _ _) with u. destruct u as [ux uy uz]. unfold vscale. cbn [vx vy vz]. f_equal; field; lra.
  - rewrite Forall_map. eapply Forall_impl; [|exact H]. intros s (OS & Z0 & BP). destruct s as [[ra dec] r]. destruct OS as (O1 & O2 & O3).
    rewrite (ap_one_ok rdz d2z B _ r ra dec (z (ra, dec, r))); [auto|apply (c2s_s2c (fun r => r)); auto|destruct rdz; auto].
Qed.
(** Sky coordinates and distances. *)
Theorem C43_rdd : forall fid blind d2z dtype d z l, floating (cast dtype d) = true -> Forall (fun s => on_sky s /\ d2z (c_distance fid) (snd s) = Ok (z s) /\ 0 < c_distance blind (z s)) l ->
  ap fid blind d2z "rdd" dtype (as_sky d l) = Ok (as_sky F8 (map (fun s => (fst s, c_distance blind (z s))) l)).
Proof.
  intros fid blind d2z dtype d z l F H. unfold ap. cbn [String.eqb Ascii.eqb Bool.eqb]. rewrite fmt_rdd by auto. cbn [bind]. rewrite (ap_sky false _ _ z l H). cbn [bind].
  rewrite <- (map_map (fun s : R * R * R => (fst s, c_distance blind (z s))) (s2c (fun r => r))). unfold format_output_positions. cbn [String.eqb Ascii.eqb Bool.eqb]. rewrite sky_rows_ok.
  - cbn [bind]. rewrite !map_map. unfold as_sky. rewrite !map_map. auto.
  - rewrite Forall_map. eapply Forall_impl; [|exact H]. intros [[ra dec] r] ((O1 & O2 & O3) & _ & BP). cbn. auto.
Qed.
Print Assumptions C43_rdd.
(** Sky coordinates and redshifts: angles are kept, and the new redshift is the one whose distance in the fiducial cosmology is that of the old one in the blinded cosmology. *)
Theorem C43_rdz : forall fid blind d2z dtype d l, floating (cast dtype d) = true -> (forall x z, d2z (c_distance fid) x = Ok z -> c_distance fid z = x) ->
  Forall (fun s => on_sky s /\ 0 < c_distance blind (snd s) /\ exists z, d2z (c_distance fid) (c_distance blind (snd s)) = Ok z) l ->
  exists l', ap fid blind d2z "rdz" dtype (as_sky d l) = Ok (as_sky F8 l') /\ each (fun s s' => fst s' = fst s /\ c_distance fid (snd s') = c_distance blind (snd s)) l l'.
Proof.
  intros fid blind d2z dtype d l F INV H. set (z' := fun s : R * R * R => match d2z (c_distance fid) (c_distance blind (snd s)) with Ok z => z | Err _ => 0 end). exists (map (fun s => (fst s, z' s)) l). split.
  - unfold ap. cbn [String.eqb Ascii.eqb Bool.eqb]. rewrite fmt_rdd by auto. cbn [bind]. rewrite (ap_sky true _ _ snd l).
    + cbn [bind]. rewrite <- (map_map (fun s : R * R * R => (fst s, c_distance blind (snd s))) (s2c (fun r => r))). unfold format_output_positions. cbn [String.eqb Ascii.eqb Bool.eqb]. rewrite sky_rows_ok.
      * cbn [bind]. rewrite !map_map. cbn. rewrite (map_result_ok _ (fun x => match d2z (c_distance fid) x with Ok z => z | Err _ => 0 end)).
        -- cbn [bind]. unfold as_sky. rewrite !map_map. auto.
        -- rewrite Forall_map. eapply Forall_impl; [|exact H]. intros s (_ & _ & z & Z0). rewrite Z0. auto.
      * rewrite Forall_map. eapply Forall_impl; [|exact H]. intros [[ra dec] r] ((O1 & O2 & O3) & BP & _). cbn. auto.
    + eapply Forall_impl; [|exact H]. intros s (OS & BP & _). auto.
  - unfold each. induction H as [|s l (OS & BP & z & Z0) _ IH]; cbn [map]; constructor; auto. cbn. split; auto. unfold z'. rewrite Z0. auto.
Qed.
Print Assumptions C43_rdz.
(** Identity when the two cosmologies have the same distances, and the inverse relation is exact. *)
Theorem C43_identity_cartesian : forall fid blind d2z dtype d z l, floating (cast dtype d) = true -> (forall z, c_distance blind z = c_distance fid z) ->
  Forall (fun p => p <> vzero /\ d2z (c_distance fid) (dist3 p vzero) = Ok (z p) /\ c_distance fid (z p) = dist3 p vzero) l ->
  ap fid blind d2z "pos" dtype (as_pos d l) = Ok (as_pos F8 l) /\ ap fid blind d2z "xyz" dtype (as_xyz d l) = Ok (as_xyz F8 l).
Proof.
  intros fid blind d2z dtype d z l F EQ H. destruct (C43_cartesian fid blind d2z dtype d z l F) as (l' & E1 & E2 & EA).
  - eapply Forall_impl; [|exact H]. intros p (P & Z0 & DZ). rewrite EQ, DZ. pose proof (vnorm_pos p P). rewrite dist3_origin. rewrite <- dist3_origin. rewrite dist3_origin at 2. auto.
  - assert (l' = l). { clear E1 E2. unfold each in EA. induction EA as [|p q l l' ((k & K & <-) & D) _ IH]; auto. inversion H as [|? ? (P & Z0 & DZ) H']; subst. rewrite IH by auto. f_equal. rewrite EQ, DZ, !dist3_origin, vnorm_scale, Rabs_pos_eq in D by lra.
      pose proof (vnorm_pos p P). assert (k = 1) by nra. subst k. destruct p; unfold vscale; cbn. f_equal; ring. }
    subst l'. auto.
Qed.
Print Assumptions C43_identity_cartesian.
Theorem C43_identity_rdd : forall fid blind d2z dtype d z l, floating (cast dtype d) = true -> (forall z, c_distance blind z = c_distance fid z) ->
  Forall (fun s => on_sky s /\ d2z (c_distance fid) (snd s) = Ok (z s) /\ c_distance fid (z s) = snd s) l -> ap fid blind d2z "rdd" dtype (as_sky d l) = Ok (as_sky F8 l).
Proof.
  intros fid blind d2z dtype d z l F EQ H. rewrite (C43_rdd fid blind d2z dtype d z l F).
  - do 2 f_equal. rewrite <- (map_id l) at 2. apply map_ext_in. intros s I0. rewrite Forall_forall in H. destruct (H s I0) as (_ & _ & E). rewrite EQ, E. destruct s; auto.
  - eapply Forall_impl; [|exact H]. intros [[ra dec] r] ((O1 & O2 & O3) & Z0 & DZ). rewrite EQ, DZ. cbn in *. auto.
Qed.
Print Assumptions C43_identity_rdd.
Theorem C43_identity_rdz : forall fid blind d2z dtype d l, floating (cast dtype d) = true -> (forall z, c_distance blind z = c_distance fid z) ->
  Forall (fun s => on_sky s /\ 0 < c_distance fid (snd s) /\ inverse_at (d2z (c_distance fid)) (c_distance fid) (snd s)) l -> ap fid blind d2z "rdz" dtype (as_sky d l) = Ok (as_sky F8 l).
Proof.
  intros fid blind d2z dtype d l F EQ H. unfold ap. cbn [String.eqb Ascii.eqb Bool.eqb]. rewrite fmt_rdd by auto. cbn [bind]. rewrite (ap_sky true _ _ snd l).
  - cbn [bind]. rewrite <- (map_map (fun s : R * R * R => (fst s, c_distance blind (snd s))) (s2c (fun r => r))). unfold format_output_positions. cbn [String.eqb Ascii.eqb Bool.eqb]. rewrite sky_rows_ok.
    + cbn [bind]. rewrite !map_map. cbn. rewrite (map_result_ok _ (fun x => match d2z (c_distance fid) x with Ok z => z | Err _ => 0 end)).
      * cbn [bind]. unfold as_sky. rewrite map_map. do 6 f_equal. apply map_ext_in. intros s I0. rewrite Forall_forall in H. destruct (H s I0) as (_ & _ & E). unfold inverse_at in E. rewrite EQ, E. auto.
      * rewrite Forall_map. eapply Forall_impl; [|exact H]. intros s (_ & _ & E). unfold inverse_at in E. rewrite EQ, E. auto.
    + rewrite Forall_map. eapply Forall_impl; [|exact H]. intros [[ra dec] r] ((O1 & O2 & O3) & BP & _). cbn in *. rewrite EQ. auto.
  - eapply Forall_impl; [|exact H]. intros s (OS & BP & _). rewrite EQ. auto.
Qed.
Print Assumptions C43_identity_rdz.
(** An object at the observer has no angular position: it gives NaN in the code, an error here. *)
Theorem C43_observer : forall fid blind d2z dtype d l, floating (cast dtype d) = true -> In vzero l -> exists e, ap fid blind d2z "pos" dtype (as_pos d l) = Err e.
Proof.
  intros fid blind d2z dtype d l F I0. unfold ap. cbn [String.eqb Ascii.eqb Bool.eqb]. rewrite fmt_pos by auto. cbn [bind]. assert (E : exists e, map_result (ap_one false (d2z (c_distance fid)) (c_distance blind)) l = Err e).
  { induction l as [|p l IH]; [contradiction|]. cbn [map_result]. destruct I0 as [->|I0].
    - unfold ap_one, cartesian_to_sky. rewrite distance_vnorm. replace (vnorm vzero) with 0; [|unfold vnorm, vdot, vzero; cbn; replace (0 * 0 + 0 * 0 + 0 * 0) with 0 by ring; symmetry; apply sqrt_0]. destruct (Req_EM_T 0 0); [cbn; eauto|contradiction].
    - destruct (ap_one _ _ _ p); cbn [bind]; [|eauto]. destruct (IH I0) as [e ->]. cbn. eauto. }
  destruct E as [e ->]. cbn. eauto.
Qed.
Print Assumptions C43_observer.
Definition line_cosmology (slope : R) : cosmology := Cosmology 1 (fun _ => Err AttributeError) (fun _ => Err AttributeError) [] (fun _ => 1) (fun _ => 1 / 2) (fun _ => Err AttributeError) (fun z => slope * z).
Definition line_inverse (D : R -> R) (x : R) : result R := fdiv x (D 1).
Example C43_case : (forall x z, line_inverse (c_distance (line_cosmology 3000)) x = Ok z -> c_distance (line_cosmology 3000) z = x) /\
  Forall (fun s => on_sky s /\ 0 < c_distance (line_cosmology 3100) (snd s) /\ exists z, line_inverse (c_distance (line_cosmology 3000)) (c_distance (line_cosmology 3100) (snd s)) = Ok z) [(10, 20, 1); (350, -60, 1 / 2)] /\
  Forall (fun s => on_sky s /\ line_inverse (c_distance (line_cosmology 3000)) (snd s) = Ok (snd s / (3000 * 1)) /\ 0 < c_distance (line_cosmology 3100) (snd s / (3000 * 1))) [(10, 20, 1500)] /\
  line_inverse (c_distance (line_cosmology 3000)) (dist3 (V 300 400 0) vzero) = Ok (500 / (3000 * 1)).
Proof.
  assert (D : forall x, line_inverse (c_distance (line_cosmology 3000)) x = Ok (x / (3000 * 1))). { intros x. unfold line_inverse, fdiv. cbn. destruct (Req_EM_T (3000 * 1) 0); [lra|auto]. }
  split; [intros x z; rewrite D; intro H; apply ok_inj_p in H; subst z; cbn; field|]. split; [repeat constructor; cbn; try lra; eexists; apply D|]. split; [repeat constructor; cbn; try lra; auto|].
  rewrite D. do 2 f_equal. unfold dist3. cbn. match goal with |- sqrt ?e = _ => replace e with (500 * 500) by ring end. apply sqrt_square. lra.
Qed.
