(** Property C85: catalogs sampled from a mesh, on average over seeds. Vocabulary in Ens_Spec.v and Mock_Spec.v. *)
Require Import Reals Lra Lia ZArith List Permutation Bool.
From Verif Require Import Base Vec3 Isometry_Model Rsd_Model Rsd_Spec Rsd_Proof Density_Proof Mock_Model Mock_Spec Mesh_Model Fourier_Proof Mock_Thm Mock_Thm2 Interlace_Thm Mesh_Thm Ens_Spec Ens_Proof Ens_Thm.
Import ListNotations.
Open Scope R_scope.

(** ** Cells do not overlap *)
Lemma range_inj : forall lo c (i j : nat) x, 0 < c -> lo + INR i * c <= x < lo + INR i * c + c -> in_range (lo + INR j * c) c x = true -> i = j.
Proof.
  intros lo c i j x C H Q. apply andb_true_iff in Q. destruct Q as [A B]. apply Rleb_true in A. apply Rltb_true in B.
  assert (L : forall a b : nat, INR a * c < INR b * c + c -> (a <= b)%nat). { intros a b L. assert (INR a < INR (S b)) by (rewrite S_INR; nra). apply INR_lt in H0. lia. }
  assert (i <= j)%nat by (apply L; lra). assert (j <= i)%nat by (apply L; lra). lia.
Qed.
Lemma in_cell_between : forall box center n x p, between (node box center n x) (vadd (node box center n x) (diagonal box n)) p -> in_cell box center n x p = true.
Proof.
  intros box center n x p ((A1 & A2) & (B1 & B2) & (C1 & C2)). unfold in_cell, in_range. cbv zeta. cbn [vadd vx vy vz] in *.
  rewrite !(proj2 (Rleb_true _ _)), !(proj2 (Rltb_true _ _)); auto.
Qed.
Lemma in_cell_unique : forall box center n x y p, solid box -> nonempty n -> between (node box center n x) (vadd (node box center n x) (diagonal box n)) p -> in_cell box center n y p = true -> x = y.
Proof.
  intros box center n [a b c] [a' b' c'] p (B1 & B2 & B3) (N1 & N2 & N3) (A & B & C) H. unfold in_cell in H. cbv zeta in H. apply andb_true_iff in H. destruct H as [H1 H]. apply andb_true_iff in H. destruct H as [H2 H3].
  unfold node, diagonal, vadd in *. cbn [vx vy vz ix iy iz] in *. f_equal; [eapply range_inj; [|exact A|exact H1]|eapply range_inj; [|exact B|exact H2]|eapply range_inj; [|exact C|exact H3] ]; apply Rdiv_lt_0_compat; auto; apply lt_0_INR; auto.
Qed.
Lemma filter_all : forall {A} (f : A -> bool) l, Forall (fun a => f a = true) l -> filter f l = l.
Proof. induction 1 as [|a l H F IH]; cbn; auto. rewrite H, IH. auto. Qed.
Lemma filter_none : forall {A} (f : A -> bool) l, Forall (fun a => f a = false) l -> filter f l = [].
Proof. induction 1 as [|a l H F IH]; cbn; auto. rewrite H. auto. Qed.
Lemma count_in_cells : forall box center n, solid box -> nonempty n -> forall l cs pos, NoDup l -> length cs = length l -> in_cells box center n (combine l cs) pos ->
  forall i d, (i < length l)%nat -> length (filter (in_cell box center n (nth i l d)) pos) = nth i cs 0%nat.
Proof.
  intros box center n SB NE. induction l as [|x l IH]; intros [|k cs] pos ND LN IC i d L; cbn in L, LN; try lia.
  cbn [combine] in IC. inversion IC as [|? ? ? here rest HL HF HC]; subst. inversion ND as [|? ? NI ND']; subst. rewrite filter_app, app_length.
  destruct i as [|i]; cbn [nth].
  - rewrite filter_all; [|eapply Forall_impl; [|exact HF]; intros p P; apply in_cell_between; auto].
    replace (filter _ rest) with (@nil vec); [rewrite Nat.add_0_r; auto|]. symmetry. apply filter_none.
    assert (Q : forall (l' : list (idx * nat)) rest', in_cells box center n l' rest' -> (forall y k', In (y, k') l' -> y <> x) -> Forall (fun p => in_cell box center n x p = false) rest').
    { induction 1 as [|y k' l' here' rest' HL' HF' HC' IH']; intros D; auto. apply Forall_app. split; [|apply IH'; intros; eapply D; right; eauto].
      eapply Forall_impl; [|exact HF']. intros p P. destruct (in_cell box center n x p) eqn:Z; auto. exfalso. apply (D y (length here')); [left; auto|]. apply (in_cell_unique box center n y x p); auto. }
    apply (Q _ _ HC). intros y k' Y ->. apply in_combine_l in Y. contradiction.
  - rewrite (filter_none _ here); [cbn [length]; apply IH; auto; lia|].
    eapply Forall_impl; [|exact HF]. intros p P. destruct (in_cell box center n (nth i l d) p) eqn:Z; auto. exfalso. apply NI.
    rewrite (in_cell_unique box center n x (nth i l d) p); auto. apply nth_In. lia.
Qed.
Lemma cell_rank : forall n x, within n x -> (cell_id n x < length (cells n))%nat /\ nth (cell_id n x) (cells n) (I 0 0 0) = x.
Proof.
  intros n x X. assert (LN : (ix n * iy n * iz n = length (cells n))%nat) by (rewrite <- (map_length (cell_id n)), cells_ids, seq_length; auto).
  assert (L : (cell_id n x < length (cells n))%nat). { assert (Q : In (cell_id n x) (map (cell_id n) (cells n))) by (apply in_map, cells_In; auto). rewrite cells_ids in Q. apply in_seq in Q. lia. }
  split; auto. apply (id_inj n); auto; [apply cells_In, nth_In; auto|].
  rewrite <- (map_nth (cell_id n)), cells_ids. rewrite (nth_indep _ _ 0%nat) by (rewrite seq_length; lia). rewrite seq_nth; lia.
Qed.
(** Objects in a cell are as many as the Poisson generator says. *)
Lemma number_drawn : forall box center n delta nbar poisson parts uniform pos, solid box -> nonempty n -> Permutation (concat parts) (cells n) -> stream uniform ->
  (forall l, length (poisson l) = length l) -> poisson_sample box center n delta nbar poisson parts uniform = Ok pos ->
  forall x, within n x -> number_in box center n x pos = INR (nth (cell_id n x) (poisson (means box n delta nbar)) 0%nat).
Proof.
  intros box center n delta nbar poisson parts uniform pos SB NE P ST PL H x X. pose proof (C39_cells _ _ _ _ _ _ _ _ _ SB NE P ST PL H) as C.
  assert (LN : length (poisson (means box n delta nbar)) = length (cells n)) by (rewrite PL; apply map_length). destruct (cell_rank n x X) as [L Q]. unfold number_in. f_equal.
  pose proof (count_in_cells box center n SB NE (cells n) _ pos (cells_nodup n) LN C (cell_id n x) (I 0 0 0) L) as Z. rewrite Q in Z. auto.
Qed.
Lemma mean_of : forall box n delta nbar x, nonempty n -> within n x -> nth (cell_id n x) (means box n delta nbar) 0 = (1 + delta x) * nbar x * cell_volume box n.
Proof.
  intros box n delta nbar x (N1 & N2 & N3) X. destruct (cell_rank n x X) as [L Q]. unfold means. set (f := fun x => _). rewrite (nth_indep _ 0 (f (I 0 0 0))) by (rewrite map_length; auto). rewrite map_nth, Q. unfold f. f_equal.
  unfold cell_volume, volume, size. field. repeat split; apply not_0_INR; lia.
Qed.

Section Sampled.
Context {S : Type} (E : (S -> R) -> R) (box center : vec) (n : idx) (delta nbar : idx -> R) (poisson : S -> list R -> list nat) (parts : list (list idx)) (uniform : S -> nat -> list vec) (pos : S -> list vec).
Hypothesis EX : expectation E. Hypothesis SB : solid box. Hypothesis NE : nonempty n. Hypothesis P : Permutation (concat parts) (cells n). Hypothesis ST : forall s, stream (uniform s).
Hypothesis PL : poisson_law E poisson (means box n delta nbar).
Hypothesis H : forall s, poisson_sample box center n delta nbar (poisson s) parts (uniform s) = Ok (pos s).
Lemma sampled : forall s x, within n x -> number_in box center n x (pos s) = INR (nth (cell_id n x) (poisson s (means box n delta nbar)) 0%nat).
Proof. intros s x X. destruct PL as (PL1 & _). apply (number_drawn box center n delta nbar (poisson s) parts (uniform s)); auto. Qed.
Lemma rank_means : forall x, within n x -> (cell_id n x < length (means box n delta nbar))%nat.
Proof. intros x X. unfold means. rewrite map_length. apply cell_rank; auto. Qed.
Lemma mean_number : forall x, within n x -> E (fun s => number_in box center n x (pos s)) = (1 + delta x) * nbar x * cell_volume box n.
Proof.
  intros x X. destruct PL as (_ & PL2 & _). rewrite (E_ext E EX _ (fun s => INR (nth (cell_id n x) (poisson s (means box n delta nbar)) 0%nat))) by (intros; apply sampled; auto).
  rewrite PL2 by (apply rank_means; auto). apply mean_of; auto.
Qed.
Lemma mean_product : forall x y, within n x -> within n y -> E (fun s => number_in box center n x (pos s) * number_in box center n y (pos s)) =
  (1 + delta x) * nbar x * cell_volume box n * ((1 + delta y) * nbar y * cell_volume box n) + same x y * ((1 + delta x) * nbar x * cell_volume box n).
Proof.
  intros x y X Y. destruct PL as (_ & _ & PL3).
  rewrite (E_ext E EX _ (fun s => INR (nth (cell_id n x) (poisson s (means box n delta nbar)) 0%nat) * INR (nth (cell_id n y) (poisson s (means box n delta nbar)) 0%nat))) by (intros; rewrite !sampled; auto).
  rewrite PL3 by (apply rank_means; auto). rewrite !mean_of by auto. f_equal. unfold same. destruct (idx_dec x y) as [->|D]; destruct (Nat.eq_dec _ _) as [Q|Q]; try ring; try congruence.
  exfalso. apply D. apply (id_inj n); auto.
Qed.
(** Modes of the numbers times a weight, minus a reference. *)
Lemma sampled_power : forall (w ref : idx -> R) k, within n k ->
  E (fun s => modulus2 (r2c n (fun x => w x * number_in box center n x (pos s) - ref x) k)) =
  modulus2 (r2c n (fun x => w x * ((1 + delta x) * nbar x * cell_volume box n) - ref x) k) + Rsum (map (fun x => (1 + delta x) * nbar x * cell_volume box n * (w x / size n) ^ 2) (cells n)).
Proof.
  intros w ref k K. set (lam := fun x => (1 + delta x) * nbar x * cell_volume box n). set (noise := fun s x => number_in box center n x (pos s) - lam x).
  assert (W1 : forall x, within n x -> E (fun s => noise s x) = 0).
  { intros x X. unfold noise. transitivity (E (fun s => number_in box center n x (pos s) + - lam x * 1)); [apply (E_ext E EX); intros; ring|]. rewrite (E_add E EX), (E_const E EX), mean_number by auto. fold (lam x). ring. }
  assert (W2 : forall x y, within n x -> within n y -> E (fun s => noise s x * noise s y) = same x y * lam x).
  { intros x y X Y. unfold noise. transitivity (E (fun s => number_in box center n x (pos s) * number_in box center n y (pos s) + (- lam y * number_in box center n x (pos s) + (- lam x * number_in box center n y (pos s) + lam x * lam y)))); [apply (E_ext E EX); intros; ring|].
    rewrite !(E_add E EX), !(E_scale E EX), (E_const E EX), mean_product, !mean_number by auto. fold (lam x) (lam y). ring. }
  pose proof (noise_power_v E n noise lam (fun x => cscale (/ size n * w x) (expi (- phase n k x))) (r2c n (fun x => w x * lam x - ref x) k) EX W1 W2) as Q.
  rewrite (E_ext E EX _ (fun s => modulus2 (r2c n (fun x => w x * number_in box center n x (pos s) - ref x) k))) in Q.
  2:{ intros s. f_equal. rewrite (r2c_ext n (fun x => w x * number_in box center n x (pos s) - ref x) (fun x => (w x * lam x - ref x) + w x * noise s x) k) by (intros; unfold noise; ring).
      rewrite r2c_add. f_equal. rewrite (r2c_csum n (fun x => w x * noise s x)), <- csum_mul. apply csum_ext. intros x _. apply cplx_eq; cbn; ring. }
  rewrite Q. f_equal. apply Rsum_map_ext. intros x X. fold (lam x). f_equal. unfold modulus2. cbn [cscale expi re im]. assert (SQ := sin2_cos2 (- phase n k x)). unfold Rsqr in SQ.
  transitivity ((w x / size n) ^ 2 * (sin (- phase n k x) * sin (- phase n k x) + cos (- phase n k x) * cos (- phase n k x))); [unfold Rdiv; ring|]. rewrite SQ. ring.
Qed.
End Sampled.

(** C85. The number of objects of the catalog in a cell is, on average over seeds, the density times the volume of the cell; given the
    field, numbers in different cells are uncorrelated and the variance of each one is its mean. *)
Theorem C85_numbers : forall {S} (E : (S -> R) -> R) box center n delta nbar (poisson : S -> list R -> list nat) parts (uniform : S -> nat -> list vec) pos, expectation E -> solid box -> nonempty n ->
  Permutation (concat parts) (cells n) -> (forall s, stream (uniform s)) -> poisson_law E poisson (means box n delta nbar) ->
  (forall s, poisson_sample box center n delta nbar (poisson s) parts (uniform s) = Ok (pos s)) ->
  let expected x := (1 + delta x) * nbar x * cell_volume box n in
  (forall x, within n x -> E (fun s => number_in box center n x (pos s)) = expected x) /\
  (forall x y, within n x -> within n y -> E (fun s => (number_in box center n x (pos s) - expected x) * (number_in box center n y (pos s) - expected y)) = if idx_dec x y then expected x else 0).
Proof.
  intros S E box center n delta nbar poisson parts uniform pos EX SB NE P ST PL H expected.
  pose proof (mean_number E box center n delta nbar poisson parts uniform pos EX SB NE P ST PL H) as M. pose proof (mean_product E box center n delta nbar poisson parts uniform pos EX SB NE P ST PL H) as M2.
  split; auto. intros x y X Y.
  transitivity (E (fun s => number_in box center n x (pos s) * number_in box center n y (pos s) + (- expected y * number_in box center n x (pos s) + (- expected x * number_in box center n y (pos s) + expected x * expected y)))); [apply (E_ext E EX); intros; ring|].
  rewrite !(E_add E EX), !(E_scale E EX), (E_const E EX), M2, !M by auto. fold (expected x) (expected y). unfold same. destruct (idx_dec x y); ring.
Qed.
Print Assumptions C85_numbers.
(** Power of every mode of the number density of the catalog: that of the density it is drawn from, plus shot noise. *)
Theorem C85_density : forall {S} (E : (S -> R) -> R) box center n delta nbar (poisson : S -> list R -> list nat) parts (uniform : S -> nat -> list vec) pos, expectation E -> solid box ->
  Permutation (concat parts) (cells n) -> (forall s, stream (uniform s)) -> poisson_law E poisson (means box n delta nbar) ->
  (forall s, poisson_sample box center n delta nbar (poisson s) parts (uniform s) = Ok (pos s)) ->
  forall k, within n k -> E (fun s => modulus2 (r2c n (fun x => number_in box center n x (pos s) / cell_volume box n) k)) =
    modulus2 (r2c n (fun x => (1 + delta x) * nbar x) k) + box_mean n (fun x => (1 + delta x) * nbar x) / volume box.
Proof.
  intros S E box center n delta nbar poisson parts uniform pos EX SB P ST PL H k K. pose proof (within_nonempty n k K) as NE. pose proof (size_pos n NE) as SP.
  assert (VP : 0 < volume box) by (destruct SB as (B1 & B2 & B3); unfold volume; repeat apply Rmult_lt_0_compat; auto). assert (CV : cell_volume box n = volume box / size n) by auto.
  assert (DP : 0 < cell_volume box n) by (rewrite CV; apply Rdiv_lt_0_compat; auto).
  pose proof (sampled_power E box center n delta nbar poisson parts uniform pos EX SB NE P ST PL H (fun _ => / cell_volume box n) (fun _ => 0) k K) as Q.
  rewrite (E_ext E EX _ (fun s => modulus2 (r2c n (fun x => number_in box center n x (pos s) / cell_volume box n) k))) in Q.
  2:{ intros s. f_equal. apply r2c_ext. intros x _. unfold Rdiv. ring. }
  rewrite Q. f_equal.
  - f_equal. apply r2c_ext. intros x _. field. lra.
  - unfold box_mean. transitivity (/ size n * / volume box * Rsum (map (fun x => (1 + delta x) * nbar x) (cells n))); [|unfold Rdiv; ring]. rewrite <- Rsum_scale. apply Rsum_map_ext. intros x _. rewrite CV. field. lra.
Qed.
Print Assumptions C85_density.
(** Power of the density contrast of the catalog, where the selection function does not vanish. *)
Theorem C85_contrast : forall {S} (E : (S -> R) -> R) box center n delta nbar (poisson : S -> list R -> list nat) parts (uniform : S -> nat -> list vec) pos, expectation E -> solid box ->
  Permutation (concat parts) (cells n) -> (forall s, stream (uniform s)) -> poisson_law E poisson (means box n delta nbar) ->
  (forall s, poisson_sample box center n delta nbar (poisson s) parts (uniform s) = Ok (pos s)) -> (forall x, within n x -> 0 < nbar x) ->
  forall k, within n k -> E (fun s => modulus2 (r2c n (fun x => number_in box center n x (pos s) / (nbar x * cell_volume box n) - 1) k)) =
    modulus2 (r2c n delta k) + box_mean n (fun x => (1 + delta x) / nbar x) / volume box.
Proof.
  intros S E box center n delta nbar poisson parts uniform pos EX SB P ST PL H NB k K. pose proof (within_nonempty n k K) as NE. pose proof (size_pos n NE) as SP.
  assert (VP : 0 < volume box) by (destruct SB as (B1 & B2 & B3); unfold volume; repeat apply Rmult_lt_0_compat; auto). assert (CV : cell_volume box n = volume box / size n) by auto.
  assert (DP : 0 < cell_volume box n) by (rewrite CV; apply Rdiv_lt_0_compat; auto).
  pose proof (sampled_power E box center n delta nbar poisson parts uniform pos EX SB NE P ST PL H (fun x => / (nbar x * cell_volume box n)) (fun _ => 1) k K) as Q.
  rewrite (E_ext E EX _ (fun s => modulus2 (r2c n (fun x => number_in box center n x (pos s) / (nbar x * cell_volume box n) - 1) k))) in Q.
  2:{ intros s. f_equal. apply r2c_ext. intros x _. unfold Rdiv. ring. }
  rewrite Q. f_equal.
  - f_equal. apply r2c_ext. intros x X. specialize (NB x X). field. lra.
  - unfold box_mean. transitivity (/ size n * / volume box * Rsum (map (fun x => (1 + delta x) / nbar x) (cells n))); [|unfold Rdiv; ring]. rewrite <- Rsum_scale. apply Rsum_map_ext. intros x X. apply cells_In in X. specialize (NB x X). rewrite CV. field. lra.
Qed.
Print Assumptions C85_contrast.
(** With a constant density and a field of mean zero, the shot noise is 1 / nbar. *)
Theorem C85_constant : forall {S} (E : (S -> R) -> R) box center n delta nbar (poisson : S -> list R -> list nat) parts (uniform : S -> nat -> list vec) pos, expectation E -> solid box ->
  Permutation (concat parts) (cells n) -> (forall s, stream (uniform s)) -> poisson_law E poisson (means box n delta (fun _ => nbar)) ->
  (forall s, poisson_sample box center n delta (fun _ => nbar) (poisson s) parts (uniform s) = Ok (pos s)) -> 0 < nbar -> Rsum (map delta (cells n)) = 0 ->
  forall k, within n k -> E (fun s => modulus2 (r2c n (fun x => number_in box center n x (pos s) / (nbar * cell_volume box n) - 1) k)) =
    modulus2 (r2c n delta k) + 1 / nbar / volume box.
Proof.
  intros S E box center n delta nbar poisson parts uniform pos EX SB P ST PL H NB Z k K.
  rewrite (C85_contrast E box center n delta (fun _ => nbar) poisson parts uniform pos EX SB P ST PL H (fun _ _ => NB) k K). f_equal. f_equal.
  pose proof (size_pos n (within_nonempty n k K)) as SP. unfold box_mean. rewrite (Rsum_map_ext _ (fun x => / nbar * 1 + / nbar * delta x)) by (intros; unfold Rdiv; ring). rewrite Rsum_add, !Rsum_scale, Z.
  pose proof (csum_const C1 (cells n)) as Q. apply (f_equal re) in Q. rewrite csum_re in Q. cbn in Q. rewrite Q, cells_length. field. lra.
Qed.
Print Assumptions C85_constant.
(** From the power spectrum to the catalog, on average over the seeds of the field and of the sampling: if the density of every seed can be
    sampled, the power of the catalog away from the faces of the cube of modes is Kaiser's formula plus 1 / nbar. *)
Theorem C85_kaiser : forall {S T} (E : (S -> R) -> R) (E' : (T -> R) -> R) freq neg box center n power los0 (noise : S -> idx -> cplx) inverted dk bias b d f los u out
    nbar (poisson : T -> list R -> list nat) parts (uniform : T -> nat -> list vec) pos,
  expectation E -> expectation E' -> white E n noise -> bias_is bias b -> proper_freq freq -> even_power freq box n power los0 -> solid box -> los_means los u -> 0 < nbar ->
  Permutation (concat parts) (cells n) -> (forall t, stream (uniform t)) -> (forall s, poisson_law E' poisson (means box n (out s) (fun _ => nbar))) ->
  (forall s, set_complex_delta_field freq box n power los0 (noise s) inverted = Ok (dk s)) -> (forall s, set_real_delta_field neg box center n (dk s) bias false = Ok (d s)) ->
  (forall s, eulerian_set_rsd freq neg box center n (dk s) (d s) (FNum f) (Some los) = Ok (out s)) ->
  (forall s t, poisson_sample box center n (out s) (fun _ => nbar) (poisson t) parts (uniform t) = Ok (pos s t)) ->
  forall k, within n k -> resolved_mode freq n k ->
    E (fun s => E' (fun t => modulus2 (r2c n (fun x => number_in box center n x (pos s t) / (nbar * cell_volume box n) - 1) k))) =
    ((b + f * mu2 (wave freq box n k) u) ^ 2 * asked power los0 (wave freq box n k) + 1 / nbar) / volume box.
Proof.
  intros S T E E' freq neg box center n power los0 noise inverted dk bias b d f los u out nbar poisson parts uniform pos EX EX' W B PF EV SB L NB P ST PL H H' H2 H3 k K RM.
  pose proof (within_nonempty n k K) as NE.
  assert (Z : forall s, Rsum (map (out s) (cells n)) = 0).
  { intros s. assert (D0 : dk s (I 0 0 0) = C0).
    { rewrite (proj2 (delta_inv _ _ _ _ _ _ _ _ (H s) _ (within_zero n NE))). rewrite wave_zero by auto. unfold mode_power, vzero, vdot. cbn [vx vy vz]. replace (0 * 0 + 0 * 0 + 0 * 0) with 0 by ring. rewrite sqrt_0.
      destruct (Req_EM_T 0 0); [|lra]. unfold Rdiv. rewrite Rmult_0_l, sqrt_0. apply cplx_eq; cbn; destruct inverted; cbn; ring. }
    destruct (C40_fixed freq neg box center n (dk s) (d s) (FNum f) los u SB L) as (o & O1 & O2). rewrite (H2 s) in O1. apply ok_inj in O1. subst o.
    rewrite (Rsum_map_ext _ (c2r n (fun k => cscale (b + f * mu2 (wave freq box n k) u) (dk s k)))).
    - rewrite sum_c2r by auto. rewrite D0. cbn. ring.
    - intros x X. apply cells_In in X. rewrite (O2 x X). cbn [growth]. rewrite (real_field _ _ _ _ _ _ _ _ B (H' s)), c2r_scale. unfold weighted, c2r. rewrite <- !Rsum_scale, <- Rsum_add. apply Rsum_map_ext. intros i _. ring. }
  transitivity (E (fun s => re (cross (r2c n (out s) k) (r2c n (out s) k)) + 1 / nbar / volume box * 1)).
  - apply (E_ext E EX). intros s. rewrite (C85_constant E' box center n (out s) nbar poisson parts uniform (pos s) EX' SB P ST (PL s) (H3 s) NB (Z s) k K). rewrite modulus2_cross. ring.
  - rewrite (E_add E EX), (E_scale E EX), (E_const E EX).
    destruct (C84_kaiser E freq neg box center n power los0 noise inverted dk bias b d f los u out EX W B PF EV SB L H H' H2 k k K K RM) as [Q _]. rewrite Q. destruct (idx_dec k k); [|congruence]. unfold Rdiv. ring.
Qed.
Print Assumptions C85_kaiser.

(** A generator that gives 0 or 2 objects to each of two cells, where one is expected: mean and variance are 1. *)
Definition coins (f : bool * bool -> R) : R := (f (true, true) + f (true, false) + f (false, true) + f (false, false)) / 4.
Definition toss (s : bool * bool) (l : list R) : list nat := map (fun i => match i with O => if fst s then 2 else 0 | S O => if snd s then 2 else 0 | _ => 0 end%nat) (seq 0 (length l)).
Example C85_case : let n := I 2 1 1 in let box := V 2 1 1 in
  expectation coins /\ solid box /\ Permutation (concat [[I 1 0 0]; [I 0 0 0]]) (cells n) /\ stream (fun m => repeat (V (1 / 2) 0 0) m) /\ poisson_law coins toss (means box n (fun _ => 0) (fun _ => 1)) /\
  exists pos, (forall s, poisson_sample box vzero n (fun _ => 0) (fun _ => 1) (toss s) [[I 1 0 0]; [I 0 0 0]] (fun m => repeat (V (1 / 2) 0 0) m) = Ok (pos s)) /\
  coins (fun s => modulus2 (r2c n (fun x => number_in box vzero n x (pos s) / (1 * cell_volume box n) - 1) (I 1 0 0))) = 1 / 2.
Proof.
  intros n box. assert (EX : expectation coins). { unfold coins. repeat split; intros; try field. rewrite !H. auto. }
  assert (SB : solid box) by (repeat split; cbn; lra). assert (P : Permutation (concat [[I 1 0 0]; [I 0 0 0]]) (cells n)) by (cbn; constructor).
  assert (ST : stream (fun m => repeat (V (1 / 2) 0 0) m)) by (intro m; split; [apply repeat_length|]; intros v U; apply repeat_spec in U; subst; unfold between; cbn; lra).
  assert (ME : means box n (fun _ => 0) (fun _ => 1) = [1; 1]) by (unfold means, box, n; cbn; f_equal; [field|f_equal; field]).
  assert (PL : poisson_law coins toss (means box n (fun _ => 0) (fun _ => 1))).
  { rewrite ME. split; [intros s l; unfold toss; rewrite map_length, seq_length; auto|]. split.
    - intros [|[|i] ] I0; cbn in I0; try lia; unfold coins; cbn; field.
    - intros [|[|i] ] [|[|j] ] I0 J0; cbn in I0, J0; try lia; unfold coins; cbn; field. }
  split; auto. split; auto. split; auto. split; auto. split; auto.
  pose (pos := fun s => kept [] (poisson_sample box vzero n (fun _ => 0) (fun _ => 1) (toss s) [[I 1 0 0]; [I 0 0 0]] (fun m => repeat (V (1 / 2) 0 0) m))). exists pos.
  assert (H : forall s, poisson_sample box vzero n (fun _ => 0) (fun _ => 1) (toss s) [[I 1 0 0]; [I 0 0 0]] (fun m => repeat (V (1 / 2) 0 0) m) = Ok (pos s)).
  { intros s. destruct (proj2 (C39_negative_density box vzero n (fun _ => 0) (fun _ => 1) (toss s) [[I 1 0 0]; [I 0 0 0]] (fun m => repeat (V (1 / 2) 0 0) m) SB ltac:(repeat split; cbn; lia))) as [p Q]; [intros x _; lra|].
    unfold pos. rewrite Q. auto. }
  split; auto. rewrite (C85_constant coins box vzero n (fun _ => 0) 1 toss _ (fun _ m => repeat (V (1 / 2) 0 0) m) pos EX SB P (fun _ => ST) PL H ltac:(lra)); [|cbn; lra|repeat split; cbn; lia].
  unfold modulus2, r2c, volume, box, n. cbn -[phase size]. unfold Rsum. cbn -[phase size]. field. unfold size. cbn. lra.
Qed.
