(** Theorems C09: the area of every range of right ascension that crosses 360. *)
Require Import Reals Lra.
From Verif Require Import Base Vec3 Sky_Model Sky_Spec Sky_Proof Sky_Thm.
Open Scope R_scope.

(** The area of a range written downwards is negative on every band of declinations: it falls short of the area of the region by that of the whole band. *)
Theorem C09_crossing_every_range_refuted : forall lo hi dlo dhi, hi < lo -> -90 <= dlo -> dlo < dhi -> dhi <= 90 ->
  radecbox_area (lo, hi) (dlo, dhi) < 0 /\ radecbox_area (lo, hi) (dlo, dhi) = radecbox_area (lo, hi + 360) (dlo, dhi) - radecbox_area (0, 360) (dlo, dhi).
Proof.
  intros lo hi dlo dhi H A B C. pose proof PI_RGT_0 as P. unfold radecbox_area, rad2deg, deg2rad. cbn [fst snd]. split; [|ring].
  assert (S : sin (dlo * PI / 180) < sin (dhi * PI / 180)) by (apply sin_increasing_1; nra).
  assert (Q : 0 < sin (dhi * PI / 180) * 180 / PI - sin (dlo * PI / 180) * 180 / PI).
  { replace (sin (dhi * PI / 180) * 180 / PI - sin (dlo * PI / 180) * 180 / PI) with ((sin (dhi * PI / 180) - sin (dlo * PI / 180)) * (180 / PI)) by (field; lra).
    apply Rmult_lt_0_compat; [lra|apply Rdiv_lt_0_compat; lra]. }
  nra.
Qed.
Print Assumptions C09_crossing_every_range_refuted.
Example C09_crossing_case : 40 < 300 /\ -90 <= -10 /\ -10 < 10 /\ 10 <= 90. Proof. lra. Qed.
