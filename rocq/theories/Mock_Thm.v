(** Properties C37 to C39: mesh geometry, Gaussian field, Poisson sampling. Vocabulary in Mock_Spec.v. *)
Require Import Reals ZArith List Bool Lra Lia Permutation.
From Verif Require Import Base Vec3 Isometry_Model Sky_Model Cutsky_Model Box_Model Rsd_Model Density_Proof Mock_Model Mock_Spec Fourier_Proof.
Import ListNotations.
Open Scope R_scope.

(** C37. From mesh and cell sizes: the box is made of whole cells. *)
Theorem C37_from_cells : forall nmesh cellsize box n1 n2 n3, mesh_geometry (Some nmesh) None (Some cellsize) = Ok (box, (n1, n2, n3)) ->
  (n1, n2, n3) = (first nmesh, second nmesh, third nmesh) /\
  box = V (IZR n1 * first cellsize) (IZR n2 * second cellsize) (IZR n3 * third cellsize).
Proof. intros nmesh cellsize box n1 n2 n3 H. cbn in H. injection H as <- <- <- <-. split; auto. destruct nmesh, cellsize; auto. Qed.
Print Assumptions C37_from_cells.
(** It raises exactly when there is not enough to tell the box or the mesh. *)
Theorem C37_required : forall nmesh boxsize cellsize, (forall c, cellsize = Some c -> first c <> 0 /\ second c <> 0 /\ third c <> 0) ->
  ((exists g, mesh_geometry nmesh boxsize cellsize = Ok g) <->
   (boxsize <> None /\ nmesh <> None) \/ (boxsize <> None /\ cellsize <> None) \/ (nmesh <> None /\ cellsize <> None)).
Proof.
  intros nmesh boxsize cellsize NZ. unfold mesh_geometry.
  assert (Z : forall c, cellsize = Some c -> nonzero c = true).
  { intros c E. destruct (NZ c E) as (A & B & C). unfold nonzero. apply Reqb_false in A, B, C. rewrite A, B, C. auto. }
  destruct boxsize as [b|]; destruct nmesh as [n|]; destruct cellsize as [c|]; cbn [bind]; try rewrite (Z c eq_refl); cbn [bind]; split; intro H; try (destruct H; discriminate); try (eexists; reflexivity);
    repeat (first [destruct H as [H|H] | destruct H as [H H']]); try congruence; solve [left; split; discriminate | right; left; split; discriminate | right; right; split; discriminate].
Qed.
Print Assumptions C37_required.
Lemma rint_near : forall x, Rabs (IZR (rint x) - x) <= 1 / 2.
Proof.
  intro x. unfold rint. pose proof (Rfloor_spec x). apply Rabs_le. destruct (Rlt_dec _ _); [lra|]. destruct (Rlt_dec _ _); [rewrite plus_IZR; lra|]. destruct (Z.even _); [lra|rewrite plus_IZR; lra].
Qed.
Lemma rint_int : forall n, rint (IZR n) = n.
Proof. intro n. unfold rint. rewrite Rfloor_IZR. destruct (Rlt_dec _ _); auto. lra. Qed.
(** From box and cell sizes: the box is the one asked for, and, along each axis, the length of the cells is off by half a cell at most;
    by nothing if the box is made of whole cells. *)
Theorem C37_from_box : forall boxsize cellsize box n1 n2 n3, mesh_geometry None (Some boxsize) (Some cellsize) = Ok (box, (n1, n2, n3)) ->
  box = V (first boxsize) (second boxsize) (third boxsize) /\
  (0 < first cellsize -> Rabs (IZR n1 * first cellsize - vx box) <= first cellsize / 2) /\
  (0 < second cellsize -> Rabs (IZR n2 * second cellsize - vy box) <= second cellsize / 2) /\
  (0 < third cellsize -> Rabs (IZR n3 * third cellsize - vz box) <= third cellsize / 2) /\
  (forall m1 m2 m3, box = V (IZR m1 * first cellsize) (IZR m2 * second cellsize) (IZR m3 * third cellsize) -> (n1, n2, n3) = (m1, m2, m3)).
Proof.
  intros b c box n1 n2 n3 H. unfold mesh_geometry in H. cbn [bind] in H. destruct (nonzero c) eqn:NZ; [|discriminate]. cbn [bind] in H.
  unfold nonzero in NZ. apply andb_prop in NZ. destruct NZ as [NZ Z3]. apply andb_prop in NZ. destruct NZ as [Z1 Z2]. rewrite negb_true_iff in Z1, Z2, Z3. apply Reqb_false in Z1, Z2, Z3.
  assert (E : (first (arg2 (fun b c => rint (b / c)) b c), second (arg2 (fun b c => rint (b / c)) b c), third (arg2 (fun b c => rint (b / c)) b c)) =
    (rint (first b / first c), rint (second b / second c), rint (third b / third c))) by (destruct b, c; auto).
  assert (EB : box = V (first b) (second b) (third b)) by congruence. assert (EN : (n1, n2, n3) = (rint (first b / first c), rint (second b / second c), rint (third b / third c))) by congruence. clear H E.
  injection EN as -> -> ->. subst box. cbn [vx vy vz]. split; auto.
  assert (K : forall x y, 0 < y -> Rabs (IZR (rint (x / y)) * y - x) <= y / 2).
  { intros x y Y. pose proof (rint_near (x / y)) as N. replace (IZR (rint (x / y)) * y - x) with ((IZR (rint (x / y)) - x / y) * y) by (field; lra). rewrite Rabs_mult, (Rabs_right y) by lra. nra. }
  split; [intro; apply K; auto|]. split; [intro; apply K; auto|]. split; [intro; apply K; auto|]. intros m1 m2 m3 E. injection E as -> -> ->.
  assert (Q : forall m y, y <> 0 -> IZR m * y / y = IZR m) by (intros; field; auto). rewrite !Q by auto. rewrite !rint_int. auto.
Qed.
Print Assumptions C37_from_box.
Example C37_case : exists g, mesh_geometry None (Some (Scalar 10)) (Some (Triple 2 (5 / 2) 5)) = Ok g.
Proof. unfold mesh_geometry. cbn [bind]. unfold nonzero. cbn [first second third]. rewrite !(proj2 (Reqb_false _ _)) by lra. cbn. eexists. reflexivity. Qed.
(** Sizes that do not fit together are accepted: cells of 3 in a box of 10; with the three of them given, the cell size is ignored. *)
Theorem C37_sizes_differ_refuted : exists box n1 n2 n3, mesh_geometry None (Some (Scalar 10)) (Some (Scalar 3)) = Ok (box, (n1, n2, n3)) /\ vx box <> IZR n1 * 3.
Proof.
  unfold mesh_geometry. cbn [bind]. unfold nonzero. cbn [first second third]. rewrite !(proj2 (Reqb_false _ _)) by lra. cbn [negb andb bind arg2 first second third].
  do 4 eexists. split; [reflexivity|]. cbn [vx]. intro E. pose proof (rint_near (10 / 3)) as N. set (k := rint (10 / 3)) in *.
  assert (10 = 3 * k)%Z by (apply eq_IZR; rewrite mult_IZR; lra). lia.
Qed.
Print Assumptions C37_sizes_differ_refuted.
Theorem C37_cellsize_ignored_refuted : forall nmesh boxsize cellsize, mesh_geometry (Some nmesh) (Some boxsize) (Some cellsize) = mesh_geometry (Some nmesh) (Some boxsize) None.
Proof. auto. Qed.
Print Assumptions C37_cellsize_ignored_refuted.

(** C38. *)
Lemma ok_inj : forall {A} (a b : A), Ok a = Ok b -> a = b. Proof. congruence. Qed.
Lemma tabulate_inv : forall {A} n (f : idx -> result A) d g, tabulate n f d = Ok g -> forall x, within n x -> f x = Ok (g x).
Proof.
  intros A n f d g H x W. unfold tabulate in H. destruct (forallb _ _) eqn:F; [|discriminate]. injection H as <-. rewrite forallb_forall in F. specialize (F x (proj2 (cells_In n x) W)). destruct (f x); [auto|discriminate].
Qed.
Lemma tabulate_ok : forall {A} n (f : idx -> result A) d g, (forall x, within n x -> f x = Ok (g x)) -> exists h, tabulate n f d = Ok h /\ forall x, within n x -> h x = g x.
Proof.
  intros A n f d g H. unfold tabulate. replace (forallb _ _) with true. - eexists. split; [reflexivity|]. intros x W. cbn. rewrite H; auto.
  - symmetry. apply forallb_forall. intros x X. apply cells_In in X. rewrite H; auto.
Qed.
Lemma within_zero : forall n, nonempty n -> within n (I 0 0 0).
Proof. intros n (A & B & C). repeat split; auto. Qed.
Lemma freq_zero : forall freq n, proper_freq freq -> (0 < n)%nat -> freq n 0%nat = 0%Z.
Proof. intros freq n F N. destruct (F n 0%nat N) as [[q E] B]. rewrite E in *. clear E. rewrite Z.add_0_l, Z.abs_mul in *. destruct (Z.eq_dec q 0); [subst; auto|]. assert (1 <= Z.abs q)%Z by lia. rewrite (Z.abs_eq (Z.of_nat n)) in B by lia. nia. Qed.
Lemma wave_zero : forall freq box n, proper_freq freq -> nonempty n -> wave freq box n (I 0 0 0) = vzero.
Proof. intros freq box n F (A & B & C). unfold wave. cbn [ix iy iz]. rewrite !freq_zero by auto. unfold vzero. f_equal; ring. Qed.
Lemma delta_inv : forall freq box n power los noise inverted delta, set_complex_delta_field freq box n power los noise inverted = Ok delta ->
  forall k, within n k -> let p := mode_power power los (wave freq box n k) / (vx box * vy box * vz box) in
  0 <= p /\ delta k = cscale (sqrt p) (if inverted then cscale (-1) (noise k) else noise k).
Proof.
  intros freq box n power los noise inverted delta H k W p. unfold set_complex_delta_field in H. unfold fdiv in H. destruct (Req_EM_T _ 0) as [E|E] in H; [discriminate|]. cbn [bind] in H.
  pose proof (tabulate_inv _ _ _ _ H k W) as T. cbn beta zeta in T. replace (mode_power power los (wave freq box n k) * (1 / (vx box * vy box * vz box))) with p in T by (unfold p, Rdiv; ring).
  destruct (Rlt_dec p 0); [discriminate|]. split; [lra|]. congruence.
Qed.
(** The field sums up to zero over the mesh, whatever the noise, the power spectrum and the line of sight; so does the biased one. *)
Theorem C38_zero_mean : forall freq neg box center n power los noise inverted delta_k bias delta, proper_freq freq -> nonempty n ->
  set_complex_delta_field freq box n power los noise inverted = Ok delta_k ->
  (bias = None \/ exists b, bias = Some (BNum b)) ->
  set_real_delta_field neg box center n delta_k bias false = Ok delta -> Rsum (map delta (cells n)) = 0.
Proof.
  intros freq neg box center n power los noise inverted delta_k bias delta F N H B R. pose proof (delta_inv _ _ _ _ _ _ _ _ H (I 0 0 0) (within_zero n N)) as D. cbv zeta in D.
  destruct D as [_ D]. rewrite wave_zero in D by auto. unfold mode_power in D. replace (vdot vzero vzero) with 0 in D by (unfold vdot, vzero; cbn; ring). rewrite sqrt_0 in D. destruct (Req_EM_T 0 0); [|lra].
  assert (Z : re (delta_k (I 0 0 0)) = 0). { rewrite D. unfold Rdiv. rewrite Rmult_0_l, sqrt_0. cbn. ring. }
  unfold set_real_delta_field in R. cbv zeta in R. destruct B as [->|[b ->]]; injection R as <-.
  - rewrite sum_c2r, Z by auto. ring.
  - rewrite (Rsum_map_ext _ (fun x => b * c2r n delta_k x)) by (intros; ring). replace (Rsum (map (fun x => b * c2r n delta_k x) (cells n))) with (b * Rsum (map (c2r n delta_k) (cells n))).
    + rewrite sum_c2r, Z by auto. ring.
    + induction (cells n) as [|x l IH]; unfold Rsum in *; cbn [map fold_right]; [ring|]. rewrite <- IH. ring.
Qed.
Print Assumptions C38_zero_mean.
(** Inverting the phase gives minus the field. *)
Theorem C38_inverted_phase : forall freq neg box center n power los noise delta_k, set_complex_delta_field freq box n power los noise false = Ok delta_k ->
  exists delta_k', set_complex_delta_field freq box n power los noise true = Ok delta_k' /\
  forall delta delta', set_real_delta_field neg box center n delta_k None false = Ok delta -> set_real_delta_field neg box center n delta_k' None false = Ok delta' ->
    forall x, delta' x = - delta x.
Proof.
  intros freq neg box center n power los noise delta_k H. pose proof (delta_inv _ _ _ _ _ _ _ _ H) as D. cbv zeta in D.
  assert (E : exists d, set_complex_delta_field freq box n power los noise true = Ok d /\ forall k, within n k -> d k = cscale (-1) (delta_k k)).
  { unfold set_complex_delta_field in *. unfold fdiv in *. destruct (Req_EM_T _ 0) as [E|E] in *; [discriminate|]. cbn [bind] in *. apply tabulate_ok. intros k W. pose proof (tabulate_inv _ _ _ _ H k W) as T. cbv beta zeta in *.
    match type of T with context [Rlt_dec ?a 0] => destruct (Rlt_dec a 0) in * end; [discriminate|]. apply ok_inj in T. rewrite <- T. f_equal. apply cplx_eq; cbn; ring. }
  destruct E as [d [E V]]. exists d. split; auto. intros delta delta' H1 H2 x. cbn in H1, H2. injection H1 as <-. injection H2 as <-. rewrite !c2r_csum.
  rewrite (csum_ext _ (fun k => cmul (creal (-1)) (cmul (delta_k k) (expi (phase n k x))))).
  - rewrite csum_mul. cbn. ring.
  - intros k K. apply cells_In in K. rewrite V, cscale_mul by auto. ring.
Qed.
Print Assumptions C38_inverted_phase.
(** Noise of unit modulus: every mode but the zero one has exactly the power asked for, over the volume of the box. *)
Theorem C38_unitary_amplitude : forall freq box n power los noise inverted delta_k k, within n k -> modulus2 (noise k) = 1 -> wave freq box n k <> vzero ->
  set_complex_delta_field freq box n power los noise inverted = Ok delta_k ->
  let w := wave freq box n k in
  modulus2 (delta_k k) = power (vnorm w) (match los with Some l => Some (vdot w l / vnorm w) | None => None end) / (vx box * vy box * vz box).
Proof.
  intros freq box n power los noise inverted delta_k k W M NZ H w. destruct (delta_inv _ _ _ _ _ _ _ _ H k W) as [P E]. fold w in P, E, NZ. unfold mode_power in P, E.
  assert (S : sqrt (vdot w w) <> 0). { intro S. apply sqrt_eq_0 in S; [|unfold vdot; nra]. apply NZ. destruct w as [a b c]. unfold vdot, vzero in *. cbn in *. assert (a = 0) by nra. assert (b = 0) by nra. assert (c = 0) by nra. subst; auto. }
  destruct (Req_EM_T _ 0); [contradiction|]. unfold vnorm. set (q := match los with Some l => _ | None => _ end) in P, E.
  replace (power (sqrt (vdot w w)) _) with q by (unfold q; destruct los; auto).
  rewrite E. unfold modulus2 in *. set (z := if inverted then _ else _). assert (Z : re z ^ 2 + im z ^ 2 = 1) by (unfold z; destruct inverted; cbn [re im cscale]; lra).
  cbn [re im cscale]. transitivity (sqrt (q / (vx box * vy box * vz box)) * sqrt (q / (vx box * vy box * vz box)) * (re z ^ 2 + im z ^ 2)); [ring|]. rewrite sqrt_sqrt by auto. rewrite Z. ring.
Qed.
Print Assumptions C38_unitary_amplitude.
(** The lognormal transform: 1 + delta is positive everywhere, with mean one; whatever the field and its bias. *)
Theorem C38_lognormal : forall neg box center n delta_k bias, nonempty n ->
  exists delta, set_real_delta_field neg box center n delta_k bias true = Ok delta /\
  (forall x, 0 < 1 + delta x) /\ Rsum (map (fun x => 1 + delta x) (cells n)) / size n = 1.
Proof.
  intros neg box center n delta_k bias N. unfold set_real_delta_field. cbv zeta. set (d := match bias with Some _ => _ | None => _ end). clearbody d. pose proof (size_pos n N) as SP.
  assert (P : 0 < Rsum (map (fun x => exp (d x)) (cells n))).
  { pose proof (proj2 (cells_In n (I 0 0 0)) (within_zero n N)) as I0. destruct (cells n) as [|y l]; [contradiction|]. unfold Rsum. cbn [map fold_right].
    assert (0 <= fold_right Rplus 0 (map (fun x => exp (d x)) l)). { clear. induction l as [|z l IH]; cbn; [lra|]. pose proof (exp_pos (d z)). lra. } pose proof (exp_pos (d y)). lra. }
  unfold mean, fdiv. destruct (Req_EM_T (size n) 0); [lra|]. cbn [bind]. set (S := Rsum (map (fun x => exp (d x)) (cells n))) in *. eexists. split; [reflexivity|]. cbn beta. split.
  - intro x. replace (1 + (exp (d x) / (S / size n) - 1)) with (exp (d x) * (size n / S)) by (field; split; lra). apply Rmult_lt_0_compat; [apply exp_pos|apply Rdiv_lt_0_compat; auto].
  - rewrite (Rsum_map_ext _ (fun x => size n / S * exp (d x))) by (intros; field; split; lra). replace (Rsum (map (fun x => size n / S * exp (d x)) (cells n))) with (size n / S * S); [field; split; lra|].
    unfold S at 2. generalize (size n / S). intro c. clear. induction (cells n) as [|z l IH]; unfold Rsum in *; cbn [map fold_right]; [ring|]. rewrite <- IH. ring.
Qed.
Print Assumptions C38_lognormal.

(** With a power spectrum that depends on k only and hermitian noise, the field is hermitian: its transform is real. *)
Lemma opp_index : forall n i, (i < n)%nat -> ((n - i) mod n < n)%nat /\ (exists q, Z.of_nat ((n - i) mod n) = - Z.of_nat i + q * Z.of_nat n)%Z /\ ((n - (n - i) mod n) mod n = i)%nat.
Proof.
  intros n i H. assert (N : (n <> 0)%nat) by lia. split; [apply Nat.mod_upper_bound; auto|]. destruct (Nat.eq_dec i 0) as [->|NZ].
  - rewrite Nat.sub_0_r, Nat.mod_same by auto. split; [exists 0%Z; lia|]. rewrite Nat.sub_0_r. apply Nat.mod_same; auto.
  - rewrite (Nat.mod_small (n - i)) by lia. split; [exists 1%Z; lia|]. replace (n - (n - i))%nat with i by lia. apply Nat.mod_small; auto.
Qed.
Lemma freq_opp : forall freq n i, proper_freq freq -> (i < n)%nat -> Z.abs (freq n ((n - i) mod n)) = Z.abs (freq n i).
Proof.
  intros freq n i F H. destruct (opp_index n i H) as (O1 & [q O2] & _). destruct (F n i H) as [[a A] A2]. destruct (F n _ O1) as [[b B] B2].
  assert (S : (freq n i + freq n ((n - i) mod n)%nat = (a + q + b) * Z.of_nat n)%Z) by lia. set (s := (a + q + b)%Z) in *. set (x := freq n i) in *. set (y := freq n _) in *. clearbody x y s.
  assert (s = 0 \/ s = 1 \/ s = -1)%Z as [-> | [-> | ->] ]; [|lia|lia|lia]. assert (Z.abs (s * Z.of_nat n) <= Z.of_nat n)%Z by lia. rewrite Z.abs_mul, (Z.abs_eq (Z.of_nat n)) in * by lia. assert (Z.abs s <= 1)%Z by nia. lia.
Qed.
Lemma wave_opp : forall freq box n k, proper_freq freq -> within n k -> vdot (wave freq box n (opposite n k)) (wave freq box n (opposite n k)) = vdot (wave freq box n k) (wave freq box n k).
Proof.
  intros freq box n k F (A & B & C). unfold vdot, wave, opposite. cbn [vx vy vz ix iy iz].
  assert (S : forall a n i, (i < n)%nat -> (a * IZR (freq n ((n - i) mod n))) * (a * IZR (freq n ((n - i) mod n))) = (a * IZR (freq n i)) * (a * IZR (freq n i))).
  { intros a m i H. pose proof (freq_opp freq m i F H) as E. apply (f_equal IZR) in E. rewrite !abs_IZR in E. set (x := IZR (freq m ((m - i) mod m)%nat)) in *. set (y := IZR (freq m i)) in *.
    assert (Q : x * x = y * y) by (rewrite <- (Rabs_pos_eq (x * x)), <- (Rabs_pos_eq (y * y)) by nra; rewrite !Rabs_mult, E; auto). transitivity (a * a * (x * x)); [ring|]. rewrite Q. ring. }
  rewrite !S by auto. auto.
Qed.
Theorem C38_hermitian : forall freq box n power noise inverted delta_k, proper_freq freq -> hermitian n noise ->
  set_complex_delta_field freq box n power None noise inverted = Ok delta_k -> hermitian n delta_k.
Proof.
  intros freq box n power noise inverted delta_k F HN H k W.
  assert (WO : within n (opposite n k)) by (destruct W as (A & B & C); repeat split; cbn; apply opp_index; auto).
  destruct (delta_inv _ _ _ _ _ _ _ _ H k W) as [_ E]. destruct (delta_inv _ _ _ _ _ _ _ _ H _ WO) as [_ E']. rewrite E, E'.
  unfold mode_power. rewrite wave_opp by auto. destruct inverted; rewrite HN by auto; apply cplx_eq; cbn; ring.
Qed.
Print Assumptions C38_hermitian.
Lemma csum_perm : forall l l', Permutation l l' -> csum l = csum l'.
Proof. induction 1; auto; rewrite ?csum_cons; try congruence. ring. Qed.
Lemma opposite_perm : forall n, Permutation (map (opposite n) (cells n)) (cells n).
Proof.
  intro n. assert (INV : forall k, within n k -> within n (opposite n k) /\ opposite n (opposite n k) = k).
  { intros [a b c] (A & B & C). cbn [ix iy iz] in *. destruct (opp_index _ _ A) as (A1 & _ & A2). destruct (opp_index _ _ B) as (B1 & _ & B2). destruct (opp_index _ _ C) as (D1 & _ & D2).
    split; [repeat split; auto|]. unfold opposite. cbn [ix iy iz]. rewrite A2, B2, D2. auto. }
  apply NoDup_Permutation; [|apply cells_nodup|].
  - pose proof (cells_nodup n) as N. assert (S : forall x, In x (cells n) -> within n x) by (intros; apply cells_In; auto). induction (cells n) as [|x l IH]; [constructor|]. inversion N as [|? ? N1 N2]; subst. cbn. constructor.
    + intro I. apply in_map_iff in I. destruct I as [y [E Y]]. apply N1. replace x with y; auto. rewrite <- (proj2 (INV x (S x (or_introl eq_refl)))), <- (proj2 (INV y (S y (or_intror Y)))). congruence.
    + apply IH; auto. intros; apply S; right; auto.
  - intro x. split; intro I.
    + apply in_map_iff in I. destruct I as [y [<- Y]]. apply cells_In. apply INV. apply cells_In; auto.
    + apply cells_In in I. rewrite <- (proj2 (INV x I)). apply in_map. apply cells_In. apply INV; auto.
Qed.
Lemma phase_opp : forall n k x, within n k -> expi (phase n (opposite n k) x) = expi (- phase n k x).
Proof.
  intros n k x (A & B & C). destruct (opp_index _ _ A) as (_ & [p P] & _). destruct (opp_index _ _ B) as (_ & [q Q] & _). destruct (opp_index _ _ C) as (_ & [r R0] & _).
  rewrite <- (expi_period (- phase n k x) (p * Z.of_nat (ix x) + q * Z.of_nat (iy x) + r * Z.of_nat (iz x))). f_equal. unfold phase, opposite. cbn [ix iy iz].
  rewrite !INR_IZR_INZ, P, Q, R0. rewrite !plus_IZR, !mult_IZR, !opp_IZR, <- !INR_IZR_INZ. assert (INR (ix n) <> 0) by (apply not_0_INR; lia). assert (INR (iy n) <> 0) by (apply not_0_INR; lia). assert (INR (iz n) <> 0) by (apply not_0_INR; lia). field. auto.
Qed.
Theorem C38_real : forall n c x, hermitian n c -> Rsum (map (fun k => im (cmul (c k) (expi (phase n k x)))) (cells n)) = 0.
Proof.
  intros n c x H. rewrite <- csum_im. set (s := csum _). assert (E : s = conj s).
  { unfold s at 1. rewrite <- (csum_perm _ _ (Permutation_map (fun k => cmul (c k) (expi (phase n k x))) (opposite_perm n))). rewrite map_map.
    rewrite (csum_ext _ (fun k => conj (cmul (c k) (expi (phase n k x))))).
    - unfold s. apply cplx_eq; cbn [conj re im]; [rewrite !csum_re; auto|rewrite !csum_im]. cbn [conj im]. clear. induction (cells n) as [|y l IH]; unfold Rsum in *; cbn [map fold_right]; [ring|]. rewrite IH. ring.
    - intros k K. apply cells_In in K. rewrite H, phase_opp by auto. rewrite expi_conj. apply cplx_eq; cbn; ring. }
  apply (f_equal im) in E. cbn in E. lra.
Qed.
Print Assumptions C38_real.
(** A field of two cells. *)
Definition signed (n i : nat) : BinNums.Z := if Nat.leb (2 * i) n then Z.of_nat i else (Z.of_nat i - Z.of_nat n)%Z.
Lemma signed_proper : proper_freq signed.
Proof.
  intros n i H. unfold signed. destruct (Nat.leb_spec (2 * i) n).
  - split; [exists 0%Z; lia|lia].
  - split; [exists (-1)%Z; lia|lia].
Qed.
Example C38_case : nonempty (I 2 1 1) /\ exists d, set_complex_delta_field signed (V 1 1 1) (I 2 1 1) (fun _ _ => 4) None (fun _ => Cx 1 0) false = Ok d /\ re (d (I 1 0 0)) = 2.
Proof.
  split; [repeat split; cbn; lia|].
  assert (P : forall k, mode_power (fun _ _ => 4) None k = 0 \/ mode_power (fun _ _ => 4) None k = 4) by (intro k; unfold mode_power; destruct (Req_EM_T _ 0); auto).
  assert (H : exists d, set_complex_delta_field signed (V 1 1 1) (I 2 1 1) (fun _ _ => 4) None (fun _ => Cx 1 0) false = Ok d).
  { unfold set_complex_delta_field, fdiv. destruct (Req_EM_T _ 0) as [E|E]; [cbn in E; lra|]. cbn [bind].
    destruct (tabulate_ok (I 2 1 1) (fun k => let noise := Cx 1 0 in let p := mode_power (fun _ _ => 4) None (wave signed (V 1 1 1) (I 2 1 1) k) * (1 / (1 * 1 * 1)) in if Rlt_dec p 0 then Err ZeroDivision else Ok (cscale (sqrt p) noise)) (Cx 0 0)
      (fun k => cscale (sqrt (mode_power (fun _ _ => 4) None (wave signed (V 1 1 1) (I 2 1 1) k) * (1 / (1 * 1 * 1)))) (Cx 1 0))) as [h [T _]]; [|exists h; exact T].
    intros k _. cbv zeta. destruct (Rlt_dec _ 0) as [L|L]; auto. exfalso. destruct (P (wave signed (V 1 1 1) (I 2 1 1) k)) as [Q|Q]; rewrite Q in L; lra. }
  destruct H as [d H]. exists d. split; auto. assert (W : within (I 2 1 1) (I 1 0 0)) by (repeat split; cbn; lia).
  assert (NZ : wave signed (V 1 1 1) (I 2 1 1) (I 1 0 0) <> vzero). { unfold wave, vzero. cbn. pose proof PI_RGT_0. intro E. apply (f_equal vx) in E. cbn in E. lra. }
  destruct (delta_inv _ _ _ _ _ _ _ _ H _ W) as [_ ->]. unfold mode_power. destruct (Req_EM_T _ 0) as [E|E].
  - exfalso. apply sqrt_eq_0 in E; [|unfold vdot; nra]. apply NZ. set (w := wave _ _ _ _) in *. destruct w as [a b c]. unfold vdot, vzero in *. cbn in E. assert (a = 0) by nra. assert (b = 0) by nra. assert (c = 0) by nra. subst; auto.
  - cbn [cscale re vx vy vz]. replace (4 / (1 * 1 * 1)) with (2 * 2) by field. rewrite sqrt_square by lra. ring.
Qed.

(** C39. *)
Lemma insert_perm : forall {A} (x : nat * A) l, Permutation (insert x l) (x :: l).
Proof. induction l as [|y l IH]; cbn; auto. destruct (Nat.leb _ _); auto. apply Permutation_trans with (y :: x :: l); [constructor; auto|constructor]. Qed.
Lemma sort_perm : forall {A} (l : list (nat * A)), Permutation (fold_right insert [] l) l.
Proof. induction l as [|x l IH]; cbn; auto. apply Permutation_trans with (x :: fold_right insert [] l); [apply insert_perm|constructor; auto]. Qed.
Inductive id_sorted {A} : list (nat * A) -> Prop :=
| ids_nil : id_sorted []
| ids_cons : forall x l, (forall y, In y l -> (fst x <= fst y)%nat) -> id_sorted l -> id_sorted (x :: l).
Lemma insert_sorted : forall {A} (x : nat * A) l, id_sorted l -> id_sorted (insert x l).
Proof.
  induction l as [|y l IH]; intro S; cbn; [constructor; [contradiction|auto]|]. inversion S as [|? ? S1 S2]; subst. destruct (Nat.leb_spec (fst x) (fst y)).
  - constructor; auto. intros z [<-|Z]; auto. specialize (S1 z Z). lia.
  - constructor; auto. intros z Z. apply (Permutation_in _ (insert_perm x l)) in Z. destruct Z as [<-|Z]; [lia|auto].
Qed.
Lemma sort_sorted : forall {A} (l : list (nat * A)), id_sorted (fold_right insert [] l).
Proof. induction l; cbn; [constructor|apply insert_sorted; auto]. Qed.
Lemma sorted_unique : forall {A} (l l' : list (nat * A)), Permutation l l' -> id_sorted l -> id_sorted l' -> (forall x y, In x l -> In y l -> fst x = fst y -> x = y) -> l = l'.
Proof.
  induction l as [|x l IH]; intros l' P S S' U.
  - apply Permutation_nil in P. auto.
  - destruct l' as [|y l']; [apply Permutation_sym, Permutation_nil in P; discriminate|]. inversion S as [|? ? S1 S2]; subst. inversion S' as [|? ? S1' S2']; subst.
    assert (E : x = y).
    { assert (Y : In y (x :: l)) by (apply (Permutation_in _ (Permutation_sym P)); left; auto). assert (X : In x (y :: l')) by (apply (Permutation_in _ P); left; auto).
      apply U; auto; [left; auto|]. apply Nat.le_antisymm; [destruct Y as [<-|Y]; auto|destruct X as [<-|X]; auto]. }
    subst y. f_equal. apply IH; auto. + apply Permutation_cons_inv in P; auto. + intros a b A1 B1. apply U; right; auto.
Qed.
Lemma flat_map_perm : forall {A B} (f : A -> list B) l l', Permutation l l' -> Permutation (flat_map f l) (flat_map f l').
Proof.
  induction 1; cbn; auto.
  - apply Permutation_app_head; auto.
  - rewrite !app_assoc. apply Permutation_app_tail. apply Permutation_app_comm.
  - eapply Permutation_trans; eauto.
Qed.
Lemma flat_map_concat : forall {A B} (f : A -> list B) l, flat_map (flat_map f) l = flat_map f (concat l).
Proof. induction l as [|x l IH]; cbn; auto. rewrite IH. symmetry. apply flat_map_app. Qed.
Lemma id_inj : forall n x y, within n x -> within n y -> cell_id n x = cell_id n y -> x = y.
Proof.
  intros n [a b c] [a' b' c'] (A & B & C) (A' & B' & C') E. unfold cell_id in E. cbn [ix iy iz] in *.
  assert (E1 : (a * iy n + b = a' * iy n + b')%nat /\ c = c').
  { rewrite (Nat.mul_comm (a * iy n + b)), (Nat.mul_comm (a' * iy n + b')) in E. destruct (Nat.div_mod_unique (iz n) _ _ c c' C C' E). auto. }
  destruct E1 as [E1 ->]. rewrite (Nat.mul_comm a), (Nat.mul_comm a') in E1. destruct (Nat.div_mod_unique (iy n) _ _ b b' B B' E1). subst; auto.
Qed.
(** Cells in C order have increasing identifiers. *)
Lemma cells_ids : forall n, map (cell_id n) (cells n) = seq 0 (ix n * iy n * iz n).
Proof.
  intro n. unfold cells.
  assert (R1 : forall c b a, map (cell_id n) (map (fun k => I a b k) (seq 0 c)) = seq ((a * iy n + b) * iz n) c).
  { intros c b a. rewrite map_map. unfold cell_id. cbn [ix iy iz]. induction c as [|c IH]; auto. rewrite !seq_S, map_app, IH. auto. }
  assert (R2 : forall m a, map (cell_id n) (flat_map (fun b => map (fun k => I a b k) (seq 0 (iz n))) (seq 0 m)) = seq (a * iy n * iz n) (m * iz n)).
  { induction m as [|m IH]; intro a; auto. rewrite seq_S, flat_map_app, map_app, IH. cbn [flat_map Nat.add]. rewrite app_nil_r, R1. replace (S m * iz n)%nat with (m * iz n + iz n)%nat by lia. rewrite seq_app. f_equal. f_equal. lia. }
  induction (ix n) as [|m IH]; auto. rewrite seq_S, flat_map_app, map_app, IH. cbn [flat_map Nat.add]. rewrite app_nil_r, R2. replace (S m * iy n * iz n)%nat with (m * iy n * iz n + iy n * iz n)%nat by lia. rewrite seq_app. auto.
Qed.
Lemma ids_sorted_expand : forall {A} (g : idx -> A) (number : idx -> nat) n l s m, map (cell_id n) l = seq s m -> id_sorted (flat_map (fun x => repeat (cell_id n x, g x) (number x)) l).
Proof.
  induction l as [|x l IH]; intros s m E; [constructor|]. destruct m as [|m]; [discriminate|]. cbn [map seq] in E. injection E as E1 E2. specialize (IH _ _ E2). cbn [flat_map].
  induction (number x) as [|k IHk]; auto. cbn [repeat app]. constructor; auto. intros y Y. apply in_app_or in Y. destruct Y as [Y|Y]; [apply repeat_spec in Y; subst; auto|].
  apply in_flat_map in Y. destruct Y as [z [Z Y]]. apply repeat_spec in Y. subst y. cbn [fst]. assert (I2 : In (cell_id n z) (seq (S s) m)) by (rewrite <- E2; apply in_map; auto). apply in_seq in I2. lia.
Qed.
Lemma map_rep : forall {A B} (f : A -> B) a k, map f (repeat a k) = repeat (f a) k.
Proof. induction k; cbn; congruence. Qed.
(** What the sort of the repeated grid gives, for any sharing of the cells between processes. *)
Lemma sorted_grid : forall {A} (g : idx -> A) n (number : idx -> nat) parts, Permutation (concat parts) (cells n) ->
  sort_by_id (flat_map (fun part => flat_map (fun x => repeat (cell_id n x, g x) (number x)) part) parts) = flat_map (fun x => repeat (g x) (number x)) (cells n).
Proof.
  intros A g n number parts P. unfold sort_by_id. set (h := fun x => repeat (cell_id n x, g x) (number x)).
  replace (fold_right insert [] (flat_map (fun part => flat_map h part) parts)) with (flat_map h (cells n)).
  - clear P. induction (cells n) as [|x l IH]; cbn [flat_map map]; auto. rewrite map_app, IH. f_equal. unfold h. rewrite map_rep. auto.
  - change (fun part => flat_map h part) with (flat_map h). rewrite flat_map_concat. apply sorted_unique.
    + apply Permutation_trans with (flat_map h (concat parts)); [apply flat_map_perm, Permutation_sym; auto|apply Permutation_sym, sort_perm].
    + eapply ids_sorted_expand. apply cells_ids.
    + apply sort_sorted.
    + intros x y X Y E. apply in_flat_map in X. apply in_flat_map in Y. destruct X as [a [Ia X]]. destruct Y as [b [Ib Y]]. apply repeat_spec in X, Y. subst. cbn [fst] in E. apply cells_In in Ia, Ib. apply id_inj in E; auto. subst; auto.
Qed.
Lemma poisson_inv : forall box center n delta nbar poisson parts uniform pos, Permutation (concat parts) (cells n) -> stream uniform ->
  poisson_sample box center n delta nbar poisson parts uniform = Ok pos ->
  let grid := flat_map (fun x => repeat (grid_point box n x) (nth (cell_id n x) (poisson (means box n delta nbar)) 0%nat)) (cells n) in
  pos = map (fun x => vadd (vadd (fst x) (snd x)) (corner box center)) (combine grid (map (fun u => vmul u (cell_size box n)) (uniform (length grid)))).
Proof.
  intros box center n delta nbar poisson parts uniform pos P ST H grid. unfold poisson_sample in H. cbv zeta in H. destruct (forallb _ _) eqn:F; [|discriminate]. apply ok_inj in H. clear F.
  pose (sorted := sort_by_id (flat_map (fun part => flat_map (fun x => repeat (cell_id n x, grid_point box n x) (nth (cell_id n x) (poisson (means box n delta nbar)) 0%nat)) part) parts)).
  change (map (fun x => vadd (vadd (fst x) (snd x)) (corner box center)) (combine sorted (map (fun u => vmul u (cell_size box n)) (uniform (length sorted)))) = pos) in H.
  assert (E : sorted = grid) by apply (sorted_grid (grid_point box n) n (fun x => nth (cell_id n x) (poisson (means box n delta nbar)) 0%nat) parts P).
  rewrite E in H. auto.
Qed.
(** The catalog is made, cell after cell, of as many objects as the number drawn for this cell, all inside of this cell. *)
Theorem C39_cells : forall box center n delta nbar poisson parts uniform pos, solid box -> nonempty n -> Permutation (concat parts) (cells n) -> stream uniform ->
  (forall l, length (poisson l) = length l) ->
  poisson_sample box center n delta nbar poisson parts uniform = Ok pos ->
  in_cells box center n (combine (cells n) (poisson (means box n delta nbar))) pos.
Proof.
  intros box center n delta nbar poisson parts uniform pos (B1 & B2 & B3) (N1 & N2 & N3) P ST PL H. apply poisson_inv in H; auto. cbv zeta in H.
  assert (LN : length (poisson (means box n delta nbar)) = length (cells n)) by (rewrite PL; apply map_length).
  set (counts := poisson (means box n delta nbar)) in *. set (grid := flat_map _ (cells n)) in *. destruct (ST (length grid)) as [SL SU]. set (u := uniform (length grid)) in *. clearbody u. subst pos.
  assert (EC : forall l s, map (cell_id n) l = seq s (length l) -> forall cs, (forall i, (i < length l)%nat -> nth (s + i) counts 0%nat = nth i cs 0%nat) -> length cs = length l ->
    forall u, length u = length (flat_map (fun x => repeat (grid_point box n x) (nth (cell_id n x) counts 0%nat)) l) -> (forall v, In v u -> between (V 0 0 0) (V 1 1 1) v) ->
    in_cells box center n (combine l cs) (map (fun x => vadd (vadd (fst x) (snd x)) (corner box center)) (combine (flat_map (fun x => repeat (grid_point box n x) (nth (cell_id n x) counts 0%nat)) l) (map (fun u => vmul u (cell_size box n)) u)))).
  { clear u SL SU grid. induction l as [|x l IH]; intros s E cs CS LC u LU SU; destruct cs as [|k cs]; try discriminate; [constructor|]. cbn [flat_map combine]. cbn [map length seq] in E. injection E as E1 E2.
    assert (EK : nth (cell_id n x) counts 0%nat = k). { specialize (CS 0%nat ltac:(cbn; lia)). rewrite Nat.add_0_r in CS. rewrite E1, CS. auto. }
    cbn [flat_map] in LU. rewrite EK in *. rewrite app_length, repeat_length in LU. set (rest := flat_map _ l) in *.
    assert (SPLIT : u = firstn k u ++ skipn k u) by (symmetry; apply firstn_skipn).
    assert (LF : length (firstn k u) = k) by (rewrite firstn_length; lia). assert (LS : length (skipn k u) = length rest) by (rewrite skipn_length; lia).
    rewrite SPLIT, map_app. assert (CA : forall (a b : list vec) (c d : list vec), length a = length c -> combine (a ++ b) (c ++ d) = combine a c ++ combine b d).
    { induction a as [|y a IHa]; intros b [|z c] d L; try discriminate; auto. cbn. f_equal. apply IHa. cbn in L. lia. }
    rewrite CA by (rewrite repeat_length, map_length; auto). rewrite map_app. constructor.
    - rewrite map_length, combine_length, repeat_length, map_length, LF. apply Nat.min_id.
    - apply Forall_forall. intros q Q. apply in_map_iff in Q. destruct Q as [[a b] [<- Q]]. cbn [fst snd]. pose proof (in_combine_l _ _ _ _ Q) as QA. pose proof (in_combine_r _ _ _ _ Q) as QB.
      apply repeat_spec in QA. apply in_map_iff in QB. destruct QB as [v [<- QB]]. assert (V1 : between (V 0 0 0) (V 1 1 1) v) by (apply SU; rewrite SPLIT; apply in_or_app; auto). subst a.
      assert (C1 : 0 < vx box / INR (ix n)) by (apply Rdiv_lt_0_compat; auto; apply lt_0_INR; auto). assert (C2 : 0 < vy box / INR (iy n)) by (apply Rdiv_lt_0_compat; auto; apply lt_0_INR; auto). assert (C3 : 0 < vz box / INR (iz n)) by (apply Rdiv_lt_0_compat; auto; apply lt_0_INR; auto).
      destruct V1 as (V1 & V2 & V3). unfold between, node, vadd, vmul, corner, grid_point, cell_size. cbn [vx vy vz] in *. repeat split; nra.
    - apply (IH (S s)); auto.
      + intros i Hi. specialize (CS (S i) ltac:(cbn; lia)). rewrite <- Nat.add_succ_comm in CS. rewrite CS. auto.
      + intros v Vv. apply SU. rewrite SPLIT. apply in_or_app; auto. }
  apply (EC (cells n) 0%nat); auto. rewrite cells_ids. f_equal. rewrite <- (map_length (cell_id n)), cells_ids, seq_length. auto.
Qed.
Print Assumptions C39_cells.
(** So there are as many objects as drawn in total, all in the box. *)
Theorem C39_number : forall box center n delta nbar poisson parts uniform pos, solid box -> nonempty n -> Permutation (concat parts) (cells n) -> stream uniform ->
  (forall l, length (poisson l) = length l) -> poisson_sample box center n delta nbar poisson parts uniform = Ok pos ->
  length pos = list_sum (poisson (means box n delta nbar)) /\
  Forall (between (lower box center) (upper box center)) pos.
Proof.
  intros box center n delta nbar poisson parts uniform pos SB NE P ST PL H. pose proof (C39_cells _ _ _ _ _ _ _ _ _ SB NE P ST PL H) as C.
  assert (LN : length (poisson (means box n delta nbar)) = length (cells n)) by (rewrite PL; apply map_length). set (counts := poisson _) in *. clearbody counts. clear H P.
  assert (W : forall x, In x (cells n) -> within n x) by (intros; apply cells_In; auto). generalize dependent pos. revert counts LN W.
  induction (cells n) as [|x l IH]; intros [|k counts] LN W pos C; try discriminate; cbn [combine] in C; inversion C as [|? ? ? here rest L F C']; subst; [split; auto|].
  destruct (IH counts ltac:(cbn in LN; lia) ltac:(intros; apply W; right; auto) rest C') as [IL IF]. split; [rewrite app_length, IL; reflexivity|]. apply Forall_app. split; auto.
  destruct (W x (or_introl eq_refl)) as (W1 & W2 & W3). destruct SB as (B1 & B2 & B3). eapply Forall_impl; [|exact F]. intros p (P1 & P2 & P3). unfold between, lower, upper, node, vadd in *. cbn [vx vy vz] in *.
  assert (Q : forall b i m, 0 < b -> (i < m)%nat -> 0 <= INR i * (b / INR m) /\ INR i * (b / INR m) + b / INR m <= b).
  { intros b i m Hb Hi. assert (M : 0 < INR m) by (apply lt_0_INR; lia). assert (I1 : INR i + 1 <= INR m) by (rewrite <- S_INR; apply le_INR; lia). assert (D : 0 < b / INR m) by (apply Rdiv_lt_0_compat; auto). pose proof (pos_INR i).
    split; [nra|]. replace b with (INR m * (b / INR m)) at 3 by (field; lra). nra. }
  destruct (Q _ _ _ B1 W1). destruct (Q _ _ _ B2 W2). destruct (Q _ _ _ B3 W3). repeat split; lra.
Qed.
Print Assumptions C39_number.
(** The catalog does not depend on how the cells are shared between processes. *)
Theorem C39_processes : forall box center n delta nbar poisson parts parts' uniform, Permutation (concat parts) (cells n) -> Permutation (concat parts') (cells n) ->
  poisson_sample box center n delta nbar poisson parts uniform = poisson_sample box center n delta nbar poisson parts' uniform.
Proof.
  intros. unfold poisson_sample. cbv zeta. destruct (forallb _ _); auto. set (counts := poisson _).
  rewrite (sorted_grid (grid_point box n) n (fun x => nth (cell_id n x) counts 0%nat) parts), (sorted_grid (grid_point box n) n (fun x => nth (cell_id n x) counts 0%nat) parts'); auto.
Qed.
Print Assumptions C39_processes.
(** Sampling succeeds exactly when the density is nowhere negative: a Gaussian field below -1 in one cell makes it raise. *)
Theorem C39_negative_density : forall box center n delta nbar poisson parts uniform, solid box -> nonempty n ->
  ((exists pos, poisson_sample box center n delta nbar poisson parts uniform = Ok pos) <-> density_ok n delta nbar).
Proof.
  intros box center n delta nbar poisson parts uniform (B1 & B2 & B3) (N1 & N2 & N3). unfold poisson_sample. cbv zeta. unfold cell_size. cbn [vx vy vz].
  assert (D : 0 < vx box / INR (ix n) * (vy box / INR (iy n)) * (vz box / INR (iz n))) by (repeat apply Rmult_lt_0_compat; auto; apply Rinv_0_lt_compat, lt_0_INR; auto). set (dv := vx box / _ * _ * _) in *. clearbody dv.
  destruct (forallb _ _) eqn:F.
  - split; [intros _|intros _; eexists; reflexivity]. rewrite forallb_forall in F. intros x W. apply cells_In in W. specialize (F _ (in_map (fun x => (1 + delta x) * nbar x * dv) _ _ W)). apply Rleb_true in F. nra.
  - split; [intros [pos H]; discriminate|]. intro O. exfalso. rewrite <- not_true_iff_false in F. apply F. apply forallb_forall. intros v I0. apply in_map_iff in I0. destruct I0 as [x [<- X]]. apply cells_In in X. specialize (O x X). apply Rleb_true. nra.
Qed.
Print Assumptions C39_negative_density.
(** Two cells with one and two objects. *)
Example C39_case : solid (V 2 1 1) /\ nonempty (I 2 1 1) /\ Permutation (concat [[I 1 0 0]; [I 0 0 0]]) (cells (I 2 1 1)) /\ stream (fun m => repeat (V (1 / 2) 0 0) m) /\
  poisson_sample (V 2 1 1) (V 1 0 0) (I 2 1 1) (fun _ => 0) (fun _ => 1) (fun l => firstn (length l) [1; 2]%nat) [[I 1 0 0]; [I 0 0 0]] (fun m => repeat (V (1 / 2) 0 0) m) <> Err ValueError.
Proof.
  split; [repeat split; cbn; lra|]. split; [repeat split; cbn; lia|]. split; [cbn; constructor|]. split.
  - intro m. split; [apply repeat_length|]. intros u U. apply repeat_spec in U. subst. unfold between. cbn. lra.
  - intro E. destruct (proj2 (C39_negative_density (V 2 1 1) (V 1 0 0) (I 2 1 1) (fun _ => 0) (fun _ => 1) (fun l => firstn (length l) [1; 2]%nat) [[I 1 0 0]; [I 0 0 0]] (fun m => repeat (V (1 / 2) 0 0) m) ltac:(repeat split; cbn; lra) ltac:(repeat split; cbn; lia))) as [pos H].
    + intros x _. lra. + rewrite E in H. discriminate.
Qed.
