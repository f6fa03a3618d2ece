(** Property C64: fields of mocks read at positions. Vocabulary in Mesh_Spec.v. *)
Require Import Reals ZArith String Ascii List Bool Lra Lia Permutation.
From Verif Require Import Base Vec3 Box_Model Rsd_Model Density_Proof Mock_Model Mock_Spec Fourier_Proof Mock_Thm Mock_Thm2 Interlace_Thm Mesh_Model Mesh_Spec Mesh_Thm.
Import ListNotations.
Open Scope R_scope.

Lemma Rsum_scale : forall {A} t (f : A -> R) l, Rsum (map (fun x => t * f x) l) = t * Rsum (map f l).
Proof. intros A t f l. induction l as [|a l IH]; cbn; [ring|]. unfold Rsum in IH. rewrite IH. ring. Qed.
Lemma Rsum_plus : forall {A} (f g : A -> R) l, Rsum (map (fun x => f x + g x) l) = Rsum (map f l) + Rsum (map g l).
Proof. intros A f g l. induction l as [|a l IH]; cbn; [ring|]. unfold Rsum in IH. rewrite IH. ring. Qed.
Lemma Rsum_le_map : forall {A} (f g : A -> R) l, (forall x, In x l -> f x <= g x) -> Rsum (map f l) <= Rsum (map g l).
Proof. intros A f g l H. induction l as [|a l IH]; cbn; [lra|]. unfold Rsum in IH. pose proof (H a (or_introl eq_refl)). specialize (IH (fun x X => H x (or_intror X))). lra. Qed.
Lemma lower_char_small : forall c, small_of c (lower_char c).
Proof.
  intros c. assert (D : {In (c, lower_char c) (combine capitals smalls)} + {~ In c capitals /\ lower_char c = c}).
  { destruct c as [[] [] [] [] [] [] [] []]; first [left; cbn; repeat (first [left; reflexivity|right]); fail|right; split; [cbn; intros H; repeat (destruct H as [H|H]; [discriminate|]); exact H|reflexivity]]. }
  destruct D as [D|D]; [left|right]; auto.
Qed.
Lemma small_unique : forall c a b, small_of c a -> small_of c b -> a = b.
Proof.
  assert (F : forall c a b, In (c, a) (combine capitals smalls) -> In (c, b) (combine capitals smalls) -> a = b).
  { intros c a b H K. cbn in H, K. repeat (destruct H as [H|H]; [injection H as <- <-; repeat (destruct K as [K|K]; [try discriminate; injection K as <-; reflexivity|]); destruct K|]). destruct H. }
  intros c a b [H|[H ->]] [K|[K ->]]; eauto; apply in_combine_l in H || apply in_combine_l in K; contradiction.
Qed.
Lemma lowercase_small : forall s, small_letters s (lowercase s).
Proof. induction s as [|c s IH]; [constructor|]. constructor; [apply lower_char_small|exact IH]. Qed.
Lemma small_letters_eq : forall s s', small_letters s s' -> s' = lowercase s.
Proof.
  induction s as [|c s IH]; intros [|c' s'] H; try (inversion H; fail); auto. inversion H as [|? ? ? ? A B]; subst. cbn [lowercase]. rewrite (small_unique c c' (lower_char c) A (lower_char_small c)). f_equal. apply IH. exact B.
Qed.
Lemma resampler_eq : forall s r, resampler_of s r <-> r = (if String.eqb (lowercase s) "ngp" then "nnb" else lowercase s)%string.
Proof.
  intros s r. split.
  - intros (s' & H & K). apply small_letters_eq in H. subst s'. destruct (String.eqb_spec (lowercase s) "ngp"); destruct K as [[K ->]|[K ->]]; congruence.
  - intros ->. exists (lowercase s). split; [apply lowercase_small|]. destruct (String.eqb_spec (lowercase s) "ngp"); auto.
Qed.
(** Summing over processes is summing over cells. *)
Lemma readout_cells : forall pm n r f p, distributed pm n -> readout_at pm n r f p = Rsum (map (fun x => weight pm r n p x * f x) (cells n)).
Proof.
  intros pm n r f p [PE SE]. rewrite <- (Rsum_perm _ _ (Permutation_map (fun x => weight pm r n p x * f x) PE)). unfold readout_at.
  assert (G : forall l s, (forall j part x, nth_error l j = Some part -> sent pm r p (s + j) = false -> In x part -> weight pm r n p x = 0) ->
    Rsum (map (fun jpart => if sent pm r p (fst jpart) then Rsum (map (fun x => weight pm r n p x * f x) (snd jpart)) else 0) (combine (seq s (List.length l)) l)) = Rsum (map (fun x => weight pm r n p x * f x) (List.concat l))).
  { induction l as [|part l IH]; intros s H; auto. cbn [List.length seq combine map List.concat]. rewrite map_app, Rsum_app. cbn [fst snd]. cbn [Rsum fold_right]. change (fold_right Rplus 0) with Rsum. rewrite (IH (S s)).
    - f_equal. destruct (sent pm r p s) eqn:E; auto. symmetry. rewrite (Rsum_map_ext _ (fun _ => 0)).
      + clear. induction part as [|x part IH]; cbn; auto. unfold Rsum in IH. rewrite IH. ring.
      + intros x X. rewrite (H 0%nat part x eq_refl); auto; [ring|]. rewrite Nat.add_0_r. auto.
    - intros j q x A B C. apply (H (S j) q x); auto. rewrite <- Nat.add_succ_comm. auto. }
  apply (G (parts pm) 0%nat). intros j part x. apply SE.
Qed.
Lemma box_units : forall m p, vadd (vsub p (m_center m)) (vscale (1 / 2) (m_box m)) = vsub p (lower (m_box m) (m_center m)).
Proof. intros m p. unfold vadd, vsub, vscale, lower. cbn [vx vy vz]. f_equal; field. Qed.
Lemma given_read : forall freq pm m pos f s r, distributed pm (m_n m) -> resampler_of s r -> known pm r = true ->
  readout freq pm m pos (Given f) s false = Ok (map (value_at pm m r f) pos).
Proof.
  intros freq pm m pos f s r D R K. apply resampler_eq in R. subst r. unfold readout. cbn [choose_field bind]. rewrite K. cbn [as_mesh bind]. rewrite map_map. f_equal. apply map_ext. intros p. rewrite box_units, readout_cells by auto. auto.
Qed.
Lemma choose_named : forall m name f, has_field m name f -> exists g, choose_field m (Named name) = Ok (Mesh g) /\ forall x, g x = f x.
Proof.
  intros m name f H. unfold choose_field. destruct H as [d D|d b D B|d b D B|b B]; cbn [String.eqb Ascii.eqb Bool.eqb]; rewrite ?D, ?B; cbn [attribute bind]; eexists; split; try reflexivity; intros x; try reflexivity; unfold times, density_at; destruct b; ring.
Qed.
Lemma value_ext : forall pm m r f g p, (forall x, f x = g x) -> value_at pm m r f p = value_at pm m r g p.
Proof. intros pm m r f g p H. unfold value_at. apply Rsum_map_ext. intros x _. rewrite H. auto. Qed.

(** C64. The values given are, in the order of the positions, those of the field named, or given, in the box. *)
Theorem C64_values : forall freq pm m pos name f s r, distributed pm (m_n m) -> has_field m name f -> resampler_of s r -> known pm r = true ->
  readout freq pm m pos (Named name) s false = Ok (map (value_at pm m r f) pos) /\ readout freq pm m pos (Given f) s false = Ok (map (value_at pm m r f) pos).
Proof.
  intros freq pm m pos name f s r D F R K. split; [|apply given_read; auto]. destruct (choose_named m name f F) as (g & E & G). rewrite <- (map_ext _ _ (fun p => value_ext pm m r g f p G)). rewrite <- (given_read freq pm m pos g s r D R K).
  unfold readout. rewrite E. cbn [choose_field bind]. auto.
Qed.
Print Assumptions C64_values.
(** They are linear in the field. *)
Theorem C64_linear : forall freq pm m pos f g s a b vf vg, distributed pm (m_n m) -> readout freq pm m pos (Given f) s false = Ok vf -> readout freq pm m pos (Given g) s false = Ok vg ->
  readout freq pm m pos (Given (fun x => a * f x + b * g x)) s false = Ok (map (fun v => a * fst v + b * snd v) (combine vf vg)).
Proof.
  intros freq pm m pos f g s a b vf vg D. assert (K : known pm (if String.eqb (lowercase s) "ngp" then "nnb" else lowercase s) = true \/ known pm (if String.eqb (lowercase s) "ngp" then "nnb" else lowercase s) = false) by (destruct (known pm _); auto).
  destruct K as [K|K]; [|unfold readout; cbn [choose_field bind]; rewrite K; discriminate].
  rewrite !(given_read freq pm m pos _ s _ D (proj2 (resampler_eq s _) eq_refl) K). intros E1 E2. apply ok_inj in E1, E2. subst. f_equal. clear. induction pos as [|p pos IH]; auto. cbn [map combine fst snd]. rewrite IH. f_equal.
  unfold value_at. rewrite <- !Rsum_scale, <- Rsum_plus. apply Rsum_map_ext. intros x _. ring.
Qed.
Print Assumptions C64_linear.
(** The density is the mean density plus the weighted contrast. *)
Theorem C64_density : forall freq pm m pos s d b, distributed pm (m_n m) -> m_delta_r m = Some d -> m_nbar m = Some (Mesh b) ->
  forall v1 v2, readout freq pm m pos (Named "nbar") s false = Ok v1 -> readout freq pm m pos (Named "nbar*delta") s false = Ok v2 ->
  readout freq pm m pos (Named "nbar*(1+delta)") s false = Ok (map (fun v => fst v + snd v) (combine v1 v2)).
Proof.
  intros freq pm m pos s d b D E1 E2 v1 v2 H1 H2. assert (K : known pm (if String.eqb (lowercase s) "ngp" then "nnb" else lowercase s) = true).
  { unfold readout, choose_field in H1. cbn [String.eqb Ascii.eqb Bool.eqb] in H1. rewrite E2 in H1. cbn [attribute bind] in H1. destruct (known pm _); [auto|discriminate]. }
  pose proof (proj2 (resampler_eq s _) eq_refl) as RR.
  destruct (C64_values freq pm m pos _ _ s _ D (has_nbar m b E2) RR K) as [X1 _]. destruct (C64_values freq pm m pos _ _ s _ D (has_weighted m d _ E1 E2) RR K) as [X2 _]. destruct (C64_values freq pm m pos _ _ s _ D (has_density m d _ E1 E2) RR K) as [X3 _].
  rewrite X1 in H1. rewrite X2 in H2. rewrite X3. apply ok_inj in H1, H2. subst. f_equal. clear. induction pos as [|p pos IH]; auto. cbn [map combine fst snd]. rewrite IH. f_equal. unfold value_at. rewrite <- Rsum_plus. apply Rsum_map_ext. intros x _. cbn [density_at]. ring.
Qed.
Print Assumptions C64_density.
(** Moving the box and the positions together changes nothing. *)
Theorem C64_translation : forall freq pm m pos arg s compensate t,
  readout freq pm (set_center m (vadd (m_center m) t)) (map (fun p => vadd p t) pos) arg s compensate = readout freq pm m pos arg s compensate.
Proof.
  intros freq pm m pos arg s compensate t. unfold readout. change (choose_field (set_center m (vadd (m_center m) t)) arg) with (choose_field m arg). cbn [set_center m_n m_box m_center]. destruct (choose_field m arg); cbn [bind]; auto.
  rewrite !map_map. replace (map (fun x => vadd (vsub (vadd x t) (vadd (m_center m) t)) (vscale (1 / 2) (m_box m))) pos) with (map (fun p => vadd (vsub p (m_center m)) (vscale (1 / 2) (m_box m))) pos); auto.
  apply map_ext. intros p. f_equal. unfold vsub, vadd. cbn [vx vy vz]. f_equal; ring.
Qed.
Print Assumptions C64_translation.
(** Names of resamplers are read without regard to case, and ngp is nnb. *)
Theorem C64_case : forall freq pm m pos arg s s' compensate, small_letters s s' -> readout freq pm m pos arg s' compensate = readout freq pm m pos arg s compensate.
Proof.
  assert (I : forall s, lowercase (lowercase s) = lowercase s).
  { induction s as [|c s IH]; auto. cbn [lowercase]. rewrite IH. f_equal. destruct c as [[] [] [] [] [] [] [] []]; reflexivity. }
  intros freq pm m pos arg s s' compensate H. apply small_letters_eq in H. subst s'. unfold readout. rewrite I. auto.
Qed.
Print Assumptions C64_case.
Theorem C64_ngp : forall freq pm m pos arg compensate, readout freq pm m pos arg "ngp" compensate = readout freq pm m pos arg "nnb" compensate.
Proof. intros. reflexivity. Qed.
Print Assumptions C64_ngp.
(** Compensated, the values are those of the field that the one asked for is the smoothing of. *)
Theorem C64_compensated : forall freq pm m pos name f s r p, proper_freq freq -> solid (m_box m) -> nonempty (m_n m) -> distributed pm (m_n m) -> has_field m name f ->
  small_letters s r -> times_averaged r p -> (forall q, times_averaged r q -> known pm (if String.eqb r "ngp" then "nnb" else r) = true) ->
  exists h, smoothed freq (m_box m) (m_n m) p h f /\ readout freq pm m pos (Named name) s true = readout freq pm m pos (Given h) s false.
Proof.
  intros freq pm m pos name f s r p PF SB N D F S0 T K. apply small_letters_eq in S0. subst r. destruct (choose_named m name f F) as (g & E & G).
  destruct (C63_modes freq (m_box m) (m_n m) (lowercase s) p g PF SB N T) as (h & EH & SM). exists h. split.
  - intros k IK. destruct (SM k IK) as (w & L & X). exists w. split; auto. rewrite <- X. apply r2c_ext. intros x _. rewrite G. auto.
  - unfold readout. rewrite E. cbn [choose_field bind as_mesh]. rewrite EH. cbn [bind]. auto.
Qed.
Print Assumptions C64_compensated.
(** The values do not depend on how the cells are shared between processes. *)
Theorem C64_processes : forall freq pm pm' m pos arg s compensate, distributed pm (m_n m) -> distributed pm' (m_n m) -> known pm = known pm' -> weight pm = weight pm' ->
  readout freq pm m pos arg s compensate = readout freq pm' m pos arg s compensate.
Proof.
  intros freq pm pm' m pos arg s compensate D D' EK EW. unfold readout. rewrite EK. destruct (choose_field m arg); cbn [bind]; auto. destruct (if compensate then _ else _) as [g|]; cbn [bind]; auto. destruct (known pm' _); auto. destruct (as_mesh g); cbn [bind]; auto. f_equal.
  apply map_ext. intros p. rewrite !readout_cells by auto. rewrite EW. auto.
Qed.
Print Assumptions C64_processes.
(** With weights of a mean, values stay between the extremes of the field; so a constant field reads as this constant. *)
Theorem C64_range : forall freq pm m pos f s r low high values, distributed pm (m_n m) -> resampler_of s r -> averaging pm (m_n m) r -> (forall x, within (m_n m) x -> low <= f x <= high) ->
  readout freq pm m pos (Given f) s false = Ok values -> Forall (fun v => low <= v <= high) values /\ List.length values = List.length pos.
Proof.
  intros freq pm m pos f s r low high values D R [W1 W2] B H. assert (K : known pm r = true).
  { apply resampler_eq in R. subst r. unfold readout in H. cbn [choose_field bind] in H. destruct (known pm _); [auto|discriminate]. }
  rewrite (given_read freq pm m pos f s r D R K) in H. apply ok_inj in H. subst values. split; [|apply map_length]. apply Forall_forall. intros v V. apply in_map_iff in V. destruct V as (p & <- & _). unfold value_at. set (q := vsub _ _).
  assert (S1 : forall t, Rsum (map (fun x => weight pm r (m_n m) q x * t) (cells (m_n m))) = t).
  { intros t. rewrite (Rsum_map_ext _ (fun x => t * weight pm r (m_n m) q x)) by (intros; ring). rewrite Rsum_scale, W2. ring. }
  rewrite <- (S1 low) at 1. rewrite <- (S1 high). split; apply Rsum_le_map; intros x X; apply cells_In in X; apply Rmult_le_compat_l; auto; apply B; auto.
Qed.
Print Assumptions C64_range.
(** Other names are refused, and names of fields that are not set. *)
Theorem C64_refused : forall freq pm m pos name s compensate, ~ In name ["delta"; "nbar*delta"; "nbar*(1+delta)"; "nbar"]%string ->
  readout freq pm m pos (Named name) s compensate = Err ValueError.
Proof.
  intros freq pm m pos name s compensate H. unfold readout, choose_field. cbn [In] in H. destruct (String.eqb_spec name "delta"); [subst; tauto|]. destruct (String.eqb_spec name "nbar*delta"); [subst; tauto|].
  destruct (String.eqb_spec name "nbar*(1+delta)"); [subst; tauto|]. destruct (String.eqb_spec name "nbar"); [subst; tauto|]. auto.
Qed.
Print Assumptions C64_refused.
Theorem C64_not_set : forall freq pm m pos name s compensate, In name ["delta"; "nbar*delta"; "nbar*(1+delta)"]%string /\ m_delta_r m = None \/ In name ["nbar*delta"; "nbar*(1+delta)"; "nbar"]%string /\ m_nbar m = None ->
  readout freq pm m pos (Named name) s compensate = Err AttributeError.
Proof.
  intros freq pm m pos name s compensate [[H E]|[H E]]; unfold readout, choose_field; repeat (destruct H as [<-|H]; [cbn [String.eqb Ascii.eqb Bool.eqb]; rewrite E; destruct (m_nbar m); reflexivity|]); destruct H.
Qed.
Print Assumptions C64_not_set.
(** A mean density given as a number, as documented, cannot be read. *)
Theorem C64_number_refuted : forall freq pm m pos a s compensate, known pm (if String.eqb (lowercase s) "ngp" then "nnb" else lowercase s) = true -> m_nbar m = Some (Number a) ->
  readout freq pm m pos (Named "nbar") s compensate = Err AttributeError.
Proof. intros freq pm m pos a s compensate K E. unfold readout, choose_field. cbn [String.eqb Ascii.eqb Bool.eqb]. rewrite E. cbn [attribute bind]. destruct compensate; cbn [as_mesh bind]; auto. rewrite K. auto. Qed.
Print Assumptions C64_number_refuted.

(** Lagrangian mocks also have the three displacements. *)
Theorem C64_displacements : forall freq pm m pos disp i axis s r compensate, distributed pm (m_n m) -> m_disp m = Some disp -> In (i, axis) [(0, "disp_x"); (1, "disp_y"); (2, "disp_z")]%nat%string -> resampler_of s r -> known pm r = true ->
  lagrangian_readout freq pm m pos (Named axis) s compensate = Ok (map (value_at pm m r (disp i)) pos).
Proof.
  intros freq pm m pos disp i axis s r compensate D E I0 R K. rewrite <- (given_read freq pm m pos (disp i) s r D R K). repeat (destruct I0 as [X|I0]; [injection X as <- <-; unfold lagrangian_readout; cbn [String.prefix]; cbn; rewrite E; reflexivity|]). destruct I0.
Qed.
Print Assumptions C64_displacements.
Theorem C64_lagrangian_others : forall freq pm m pos name s, String.prefix "disp_" name = false ->
  lagrangian_readout freq pm m pos (Named name) s false = readout freq pm m pos (Named name) s false.
Proof. intros freq pm m pos name s H. unfold lagrangian_readout. rewrite H. auto. Qed.
Print Assumptions C64_lagrangian_others.
(** Some other names of displacements are taken for the first one. *)
Theorem C64_disp_names_refuted : forall freq pm m pos s compensate name, In name ["disp_"; "disp_xy"; "disp_xyz"]%string ->
  lagrangian_readout freq pm m pos (Named name) s compensate = lagrangian_readout freq pm m pos (Named "disp_x") s compensate.
Proof. intros freq pm m pos s compensate name H. repeat (destruct H as [<-|H]; [reflexivity|]). destruct H. Qed.
Print Assumptions C64_disp_names_refuted.
(** They ignore [compensate], in readout and in poisson_sample. *)
Definition checker (x : idx) : R := match ix x with O => 1 | _ => -1 end.
Definition at_origin : pmesh := PMesh (fun _ => true) (fun _ _ _ x => match x with I 0 0 0 => 1 | _ => 0 end) [cells (I 2 1 1)] (fun _ _ _ => true).
Definition checker_mock : mock := Mock (V 2 1 1) (I 2 1 1) (V 0 0 0) None (fun _ => Cx 0 0) (Some checker) None None None None None.
Lemma checker_cells : cells (I 2 1 1) = [I 0 0 0; I 1 0 0]. Proof. reflexivity. Qed.
Lemma r2c_zero : forall n f, r2c n f (I 0 0 0) = creal (/ size n * Rsum (map f (cells n))).
Proof.
  intros n f. assert (P : forall x, phase n (I 0 0 0) x = 0) by (intros x; unfold phase; cbn [ix iy iz INR]; unfold Rdiv; ring). unfold r2c, creal. f_equal.
  - f_equal. apply Rsum_map_ext. intros x _. rewrite P, cos_0. ring.
  - rewrite (Rsum_map_ext _ (fun x => 0 * 0)); [rewrite Rsum_scale; ring|]. intros x _. rewrite P, sin_0. ring.
Qed.
Lemma checker_compensated : exists g, compensate_mesh signed (V 2 1 1) (I 2 1 1) "nnb" checker = Ok g /\ g (I 0 0 0) = PI / 2.
Proof.
  assert (SB : solid (V 2 1 1)) by (repeat split; cbn; lra). assert (N : nonempty (I 2 1 1)) by (repeat split; cbn; lia). pose proof PI_RGT_0.
  destruct (C63_recovered signed (V 2 1 1) (I 2 1 1) "nnb" 1 (fun x => PI / 2 * checker x) checker signed_proper SB N ltac:(cbn; tauto)) as (g & E & S).
  - intros k K. destruct (window_left signed (V 2 1 1) (I 2 1 1) 1 k signed_proper SB K) as [L _]. eexists. split; [exact L|]. destruct k as [k1 k2 k3]. destruct K as (K1 & K2 & K3). cbn in K1, K2, K3.
    destruct k2; [|lia]. destruct k3; [|lia]. destruct k1 as [|[|k1]]; [| |lia].
    + rewrite !r2c_zero, checker_cells. cbn [map checker ix Rsum fold_right]. apply cplx_eq; cbn [cscale creal re im]; ring.
    + assert (W : window 1 (vmul (wave signed (V 2 1 1) (I 2 1 1) (I 1 0 0)) (cell_size (V 2 1 1) (I 2 1 1))) = 2 / PI).
      { unfold window, vmul, wave, cell_size. cbn [vx vy vz ix iy iz]. assert (S1 : Rabs (IZR (signed 2 1)) = 1) by (rewrite <- abs_IZR; reflexivity). assert (S0 : signed 1 0 = 0%Z) by reflexivity. rewrite S0.
        replace (1 / 2 * (2 * PI / 1 * 0 * (1 / INR 1))) with 0 by (unfold Rdiv; ring). assert (E0 : sinc 0 = 1) by (unfold sinc; destruct (Req_EM_T 0 0); lra). rewrite E0. replace (1 / 2 * (2 * PI / 2 * IZR (signed 2 1) * (2 / INR 2))) with (PI / 2 * IZR (signed 2 1)) by (cbn [INR]; field).
        assert (E1 : sinc (PI / 2) = 2 / PI) by (unfold sinc; destruct (Req_EM_T (PI / 2) 0); [lra|]; rewrite sin_PI2; field; lra).
        assert (E2 : sinc (PI / 2 * IZR (signed 2 1)) = 2 / PI). { unfold Rabs in S1. destruct (Rcase_abs (IZR (signed 2 1))). - replace (IZR (signed 2 1)) with (-1) by lra. rewrite <- E1, <- sinc_even. f_equal. lra. - rewrite S1, <- E1. f_equal. lra. }
        rewrite E2. ring. }
      rewrite W. assert (SC : forall f k, r2c (I 2 1 1) (fun x => PI / 2 * f x) k = cscale (PI / 2) (r2c (I 2 1 1) f k)).
      { intros f k. rewrite !r2c_csum, !cscale_mul. transitivity (cmul (creal (/ size (I 2 1 1))) (cmul (creal (PI / 2)) (csum (map (fun x => cmul (creal (f x)) (expi (- phase (I 2 1 1) k x))) (cells (I 2 1 1)))))); [|ring]. f_equal. rewrite <- csum_mul. apply csum_ext. intros. apply cplx_eq; cbn -[phase]; ring. }
      rewrite SC. apply cplx_eq; cbn [cscale re im]; field; lra.
  - exists g. split; auto. rewrite (S (I 0 0 0)) by (repeat split; cbn; lia). cbn. ring.
Qed.
Theorem C64_compensate_refuted : exists freq pm m pos s r p, proper_freq freq /\ solid (m_box m) /\ nonempty (m_n m) /\ distributed pm (m_n m) /\ small_letters s r /\ times_averaged r p /\
  (forall field, lagrangian_readout freq pm m pos field s true = lagrangian_readout freq pm m pos field s false) /\
  lagrangian_readout freq pm m pos (Named "delta") s true <> readout freq pm m pos (Named "delta") s true.
Proof.
  exists signed, at_origin, checker_mock, [V 0 0 0], "nnb"%string, "nnb"%string, 1%nat. split; [apply signed_proper|]. split; [repeat split; cbn; lra|]. split; [repeat split; cbn; lia|].
  assert (D : distributed at_origin (I 2 1 1)). { split; [cbn; auto|]. intros r p j part x _ H. discriminate. } split; [exact D|]. split; [apply (lowercase_small "nnb")|]. split; [cbn; tauto|]. split; [reflexivity|].
  destruct checker_compensated as (g & E & G). intros H. unfold lagrangian_readout, readout, choose_field in H. cbn [String.prefix String.eqb Ascii.eqb Bool.eqb bind attribute m_delta_r checker_mock as_mesh m_box m_n m_center] in H. change (String.prefix "disp_" "delta") with false in H. cbv iota in H. cbn [bind String.eqb Ascii.eqb Bool.eqb attribute m_delta_r checker_mock as_mesh m_box m_n] in H.
  change (lowercase "nnb") with "nnb"%string in H. rewrite E in H. cbn [bind as_mesh known at_origin String.eqb Ascii.eqb Bool.eqb map] in H. apply ok_inj in H. injection H as H. rewrite !readout_cells in H by exact D. rewrite checker_cells in H. cbn in H. rewrite G in H. pose proof PI_RGT_0. pose proof PI2_3_2. unfold PI2 in *. cbn in H. lra.
Qed.
Print Assumptions C64_compensate_refuted.
Theorem C64_sample_compensate_refuted : forall freq neg pm m poisson uniform s compensate,
  step freq neg pm Lagrangian m (Poisson poisson uniform s compensate) = step freq neg pm Lagrangian m (Poisson poisson uniform s false).
Proof. intros. reflexivity. Qed.
Print Assumptions C64_sample_compensate_refuted.
Example C64_case_met : distributed at_origin (I 2 1 1) /\ has_field checker_mock "delta" checker /\ resampler_of "NGP" "nnb" /\ small_letters "Cic" "cic" /\ averaging at_origin (I 2 1 1) "nnb".
Proof.
  split; [split; [cbn; auto|discriminate]|]. split; [constructor; auto|]. split; [apply resampler_eq; reflexivity|]. split; [apply (lowercase_small "Cic")|]. split.
  - intros p [[|a] [|b] [|c]]; cbn; lra.
  - intros p. cbn. lra.
Qed.
