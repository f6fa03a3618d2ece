(** Theorems C30: exactly the ranges of right ascension that are followed. *)
Require Import Reals Lra Lia ZArith List Bool.
From Verif Require Import Base Vec3 Sky_Model Mask_Model Mask_Spec Mask_Proof4 Mask_Thm.
Import ListNotations.
Open Scope R_scope.

(** ** Specification *)
(** Ranges written downwards; ordered ranges inside one turn, its end excluded; whole turns from a multiple of 360. *)
Definition followed_range (lo hi : R) : Prop :=
  hi <= lo \/ (exists k : Z, 360 * IZR k <= lo /\ hi < 360 * (IZR k + 1)) \/ (exists j k : Z, lo = 360 * IZR j /\ hi = 360 * IZR k).

(** ** Proofs *)
Lemma selects_test : forall lo hi d0 d1 ra dec, selects (Some (lo, hi)) (Some (d0, d1)) ra dec = true <-> ra_test (angular_rarange (Some (lo, hi))) (wrap_angle true ra) = true /\ d0 <= dec <= d1.
Proof. intros. unfold selects. rewrite mask_ranges_split. reflexivity. Qed.
Lemma mult_zero : forall i j : Z, 0 <= 360 * IZR i + 360 * IZR j < 360 -> 360 * IZR i + 360 * IZR j = 0.
Proof. intros i j H. assert (E : IZR (i + j) = IZR i + IZR j) by apply plus_IZR. assert (Z : (i + j)%Z = 0%Z) by (apply small_zero; lra). rewrite Z in E. lra. Qed.
Lemma turns : forall lo hi ra j k, lo = 360 * IZR j -> hi = 360 * IZR k -> lo < hi -> ra_test (angular_rarange (Some (lo, hi))) (wrap_angle true ra) = true /\ on_arc lo hi ra.
Proof.
  intros lo hi ra j k -> -> L. split.
  - unfold angular_rarange. destruct (wrap360 (360 * IZR j)) as (a & Ea & Ra). destruct (wrap360 (360 * IZR k)) as (b & Eb & Rb). destruct (wrap360 ra) as (m & Er & Rr). rewrite Ea, Eb, Er.
    rewrite (mult_zero _ _ Ra), (mult_zero _ _ Rb). rewrite (proj2 (Rltb_true _ _)) by exact L. rewrite (proj2 (Rleb_true 0 0)) by lra. cbn [andb]. apply ra_test_true. left. lra.
  - left. split; [exact L|]. destruct (wrap360 ra) as (m & _ & Rr). exists (m + j)%Z. rewrite plus_IZR. assert (IZR j + 1 <= IZR k). { rewrite <- plus_IZR. apply IZR_le. assert (j < k)%Z by (apply lt_IZR; lra). lia. } lra.
Qed.
(** The masks select the arc written for exactly these ranges. *)
Theorem C30_exactly : forall lo hi d0 d1 nbar, d0 <= d1 -> 0 < nbar ->
  ((forall ra dec, 0 < uniform_angular_prob nbar (Some (lo, hi)) (Some (d0, d1)) ra dec <-> on_arc lo hi ra /\ d0 <= dec <= d1) <-> followed_range lo hi).
Proof.
  intros lo hi d0 d1 nbar D N.
  assert (S : forall ra dec, 0 < uniform_angular_prob nbar (Some (lo, hi)) (Some (d0, d1)) ra dec <-> ra_test (angular_rarange (Some (lo, hi))) (wrap_angle true ra) = true /\ d0 <= dec <= d1).
  { intros ra dec. rewrite <- selects_test. unfold uniform_angular_prob, selects. destruct (mask_ranges _ _ _ dec); [|split; [lra|discriminate]]. split; [reflexivity|intros _].
    unfold Rclip. assert (0 < Rmin (Rmax nbar 0) 1) by (apply Rmin_glb_lt; [apply Rlt_le_trans with nbar; [exact N|apply Rmax_l]|lra]). lra. }
  split.
  - intro H. assert (T : forall ra, ra_test (angular_rarange (Some (lo, hi))) (wrap_angle true ra) = true <-> on_arc lo hi ra).
    { intro ra. specialize (H ra d0). rewrite S in H. split; intro X; apply H; split; auto; lra. }
    destruct (Rle_lt_dec hi lo) as [C|C]; [left; exact C|right]. destruct (wrap360 lo) as (a & Ea & Ra). destruct (wrap360 hi) as (b & Eb & Rb).
    assert (A0 : IZR (- a) = - IZR a) by apply opp_IZR. assert (B0 : IZR (- b) = - IZR b) by apply opp_IZR.
    destruct (Rlt_dec hi (360 * (IZR (- a) + 1))) as [I|I]; [left; exists (- a)%Z; rewrite A0 in *; lra|right].
    (* the origin is on the arc *)
    assert (O : on_arc lo hi 0). { left. split; [exact C|]. exists (- a + 1)%Z. rewrite plus_IZR, A0 in *. lra. }
    pose proof (proj2 (T 0) O) as O1. revert O1. unfold angular_rarange. rewrite Ea, Eb, (proj2 (Rltb_true _ _)) by exact C. cbn [andb].
    destruct (wrap360 0) as (z & Ez & Rz). assert (Z0 : z = 0%Z) by (apply small_zero; lra). subst z. rewrite Ez.
    destruct (Rleb (hi + 360 * IZR b) (lo + 360 * IZR a)) eqn:L; rewrite ra_test_true; [apply Rleb_true in L|apply Rleb_false in L].
    + intros [ (P1 & P2 & P3)|(P1 & _)]; [|lra]. exists (- a)%Z, (- b)%Z. rewrite A0, B0. lra.
    + intros [ (P1 & P2 & P3)|(P1 & _)]; [|lra].
      (* the circle is on the arc, and angles above the upper limit are not selected *)
      exfalso. set (x := (hi + 360 * IZR b + 360) / 2). assert (X : hi + 360 * IZR b < x < 360) by (unfold x; lra).
      assert (OX : on_arc lo hi x). { left. split; [exact C|]. exists (- a)%Z. rewrite A0 in *. lra. }
      apply T in OX. revert OX. unfold angular_rarange. rewrite Ea, Eb, (proj2 (Rltb_true _ _)) by exact C. cbn [andb]. rewrite (proj2 (Rleb_false _ _)) by exact L.
      destruct (wrap360 x) as (m & Em & Rm). assert (M0 : m = 0%Z) by (apply small_zero; lra). subst m. rewrite Em, ra_test_true. lra.
  - intros F ra dec. rewrite S. destruct F as [F|[F|(j & k & F1 & F2)]].
    + rewrite <- selects_test. apply (selects_arc lo hi (Some (d0, d1))). left. exact F.
    + rewrite <- selects_test. apply (selects_arc lo hi (Some (d0, d1))). right. left. exact F.
    + destruct (Rle_lt_dec hi lo) as [C|C]; [rewrite <- selects_test; apply (selects_arc lo hi (Some (d0, d1))); left; exact C|]. destruct (turns lo hi ra j k F1 F2 C). tauto.
Qed.
Print Assumptions C30_exactly.
Example C30_exact_case : followed_range 300 40 /\ followed_range 0 720 /\ ~ followed_range (-60) 40 /\ ~ followed_range 10 360.
Proof.
  split; [left; lra|]. split; [right; right; exists 0%Z, 2%Z; lra|]. split.
  - intros [H|[(k & A & B)|(j & k & A & B)] ]; [lra| |].
    + assert (k < 0)%Z by (apply lt_IZR; lra). assert (IZR k <= -1) by (apply (IZR_le k (-1)); lia). lra.
    + assert (-1 < j)%Z by (apply lt_IZR; lra). assert (0 <= IZR j) by (apply (IZR_le 0 j); lia). lra.
  - intros [H|[(k & A & B)|(j & k & A & B)] ]; [lra| |].
    + assert (k < 1)%Z by (apply lt_IZR; lra). assert (IZR k <= 0) by (apply (IZR_le k 0); lia). lra.
    + assert (0 < j)%Z by (apply lt_IZR; lra). assert (1 <= IZR j) by (apply (IZR_le 1 j); lia). lra.
Qed.
