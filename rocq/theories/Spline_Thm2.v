(** Theorem C73 for interpolation of order 1. *)
Require Import Reals ZArith List Bool Lra Lia Arith.
From Verif Require Import Base Cutsky_Model Box_Model Remap_Model Remap_Proof2 Mask_Model Mask_Spec Mask_Proof Smear_Model Smear_Spec Density_Proof Smear_Proof Spline_Model Spline_Spec Spline_Thm.
Import ListNotations.
Open Scope R_scope.

(** Nearest points of a list below and above. *)
Lemma nearest_below : forall l lo t, lo <= t -> exists a, (a = lo \/ In a l) /\ lo <= a <= t /\ forall x, In x l -> lo <= x <= t -> x <= a.
Proof.
  induction l as [|y l IH]; intros lo t L; [exists lo; cbn; intuition lra|].
  destruct (IH lo t L) as (a & A & B & C). destruct (Rle_dec a y) as [G|G]; [destruct (Rle_dec y t) as [K|K]|].
  - exists y. cbn. split; [auto|]. split; [lra|]. intros x [<-|I] D; [lra|]. specialize (C x I D). lra.
  - exists a. cbn. split; [tauto|]. split; [lra|]. intros x [<-|I] D; [lra|auto].
  - exists a. cbn. split; [tauto|]. split; [lra|]. intros x [<-|I] D; [lra|auto].
Qed.
Lemma nearest_above : forall l hi t, t <= hi -> exists b, (b = hi \/ In b l) /\ t <= b <= hi /\ forall x, In x l -> t <= x <= hi -> b <= x.
Proof.
  induction l as [|y l IH]; intros hi t L; [exists hi; cbn; intuition lra|].
  destruct (IH hi t L) as (a & A & B & C). destruct (Rle_dec y a) as [G|G]; [destruct (Rle_dec t y) as [K|K]|].
  - exists y. cbn. split; [auto|]. split; [lra|]. intros x [<-|I] D; [lra|]. specialize (C x I D). lra.
  - exists a. cbn. split; [tauto|]. split; [lra|]. intros x [<-|I] D; [lra|auto].
  - exists a. cbn. split; [tauto|]. split; [lra|]. intros x [<-|I] D; [lra|auto].
Qed.
Section Linear.
Variable make : maker.
Hypothesis splines_make : splines make.
Hypothesis straight_make : straight make.
(** With order 1 the default normalization is the inverse of the largest interpolated density in the range, which is reached. *)
Theorem C73_linear : forall fuel z nbar range m, smask_new make fuel z nbar range None 1%nat = Ok m ->
  exists s x, make 1%nat z nbar = Ok s /\ s_norm m = / value s x /\ (exists t, In t z /\ s_lo m <= t <= s_hi m) /\ s_lo m <= x <= s_hi m /\
    forall t, s_lo m <= t <= s_hi m -> value s t <= value s x.
Proof.
  intros fuel z nbar range m H. destruct (new_inv _ _ _ _ _ _ _ _ H) as (Hp & _ & _ & _ & _ & Lo & Hi & Hn & Hm).
  unfold default_norm, set_interp in Hn. destruct (make 1%nat z nbar) as [s|] eqn:Es; [|discriminate]. cbn [bind] in Hn.
  destruct (make_inv _ splines_make _ _ _ _ Es) as (_ & HL & HE & Hr & Hv & Hout).
  set (lo := s_lo m) in *. set (hi := s_hi m) in *.
  set (l := select_by (map (Mask_Model.between lo hi) z) nbar) in *.
  assert (Hn' : l <> [] /\ fdiv 1 (Rmax (Rmax (list_max l) (value s lo)) (value s hi)) = Ok (s_norm m)) by (destruct l; [discriminate|split; [discriminate|exact Hn]]).
  clear Hn. destruct Hn' as (Ne & Hn).
  set (v := Rmax (Rmax (list_max l) (value s lo)) (value s hi)) in *.
  assert (NODE : forall x b, In (x, b) (combine z nbar) -> value s x = b).
  { intros x b I. apply (In_nth _ _ (0, 0)) in I. destruct I as (i & Li & E). rewrite combine_length in Li. rewrite combine_nth in E by exact HE. injection E as E1 E2. rewrite <- E1, <- E2. apply Hv. lia. }
  assert (LI : forall b, In b l -> exists x, In x z /\ lo <= x <= hi /\ value s x = b).
  { intros b I. apply select_by_In in I. destruct I as (x & I & B). exists x. split; [eapply in_combine_l; eauto|]. apply between_spec in B. split; [lra|]. apply NODE. exact I. }
  assert (IL : forall x, In x z -> lo <= x <= hi -> In (value s x) l).
  { intros x I B. apply select_by_In. exists x. split; [|apply between_spec; lra]. apply (In_nth _ _ 0) in I. destruct I as (i & Li & E). rewrite <- E, Hv by exact Li.
    rewrite <- combine_nth by exact HE. apply nth_In. rewrite combine_length. lia. }
  destruct (LI _ (list_max_In l Ne)) as (x0 & Ix0 & Bx0 & Ex0).
  assert (LH : lo <= hi) by lra.
  assert (V : exists x, lo <= x <= hi /\ value s x = v).
  { unfold v, Rmax. destruct (Rle_dec (if Rle_dec (list_max l) (value s lo) then value s lo else list_max l) (value s hi)); [exists hi; split; [lra|reflexivity]|].
    destruct (Rle_dec (list_max l) (value s lo)); [exists lo; split; [lra|reflexivity]|]. exists x0. auto. }
  assert (VL : value s lo <= v) by (unfold v; eapply Rle_trans; [|apply Rmax_l]; apply Rmax_r).
  assert (VH : value s hi <= v) by apply Rmax_r.
  assert (VN : forall x, In x z -> lo <= x <= hi -> value s x <= v).
  { intros x I B. unfold v. eapply Rle_trans; [|apply Rmax_l]. eapply Rle_trans; [|apply Rmax_l]. apply list_max_ge. apply IL; assumption. }
  destruct V as (x & Bx & Vx). exists s, x. split; [reflexivity|]. split; [|split; [exists x0; auto|split; [exact Bx|]]].
  - rewrite Vx. unfold fdiv in Hn. destruct (Req_EM_T v 0); [discriminate|]. inversion Hn. lra.
  - intros t Bt. rewrite Vx. destruct (nearest_below z lo t (proj1 Bt)) as (a & A1 & A2 & A3). destruct (nearest_above z hi t (proj2 Bt)) as (b & B1 & B2 & B3).
    assert (Va : value s a <= v) by (destruct A1 as [->|I]; [exact VL|apply VN; [exact I|lra]]).
    assert (Vb : value s b <= v) by (destruct B1 as [->|I]; [exact VH|apply VN; [exact I|lra]]).
    destruct (Rlt_dec a b) as [AB|AB].
    + pose proof (straight_make z nbar s a b t Es ltac:(lra) ltac:(lra) ltac:(lra)) as S.
      assert (S' : (b - a) * value s t = (b - t) * value s a + (t - a) * value s b).
      { apply S. intros y I [Y1 Y2]. destruct (Rle_dec y t) as [C|C]; [specialize (A3 y I ltac:(lra)); lra|specialize (B3 y I ltac:(lra)); lra]. }
      apply (Rmult_le_reg_l (b - a)); [lra|]. rewrite S'.
      assert ((b - t) * value s a <= (b - t) * v) by (apply Rmult_le_compat_l; lra).
      assert ((t - a) * value s b <= (t - a) * v) by (apply Rmult_le_compat_l; lra). lra.
    + replace t with a by lra. exact Va.
Qed.
Print Assumptions C73_linear.
End Linear.
(** A maker of straight lines through two points. *)
Definition line (a b c d : R) : spline :=
  let inside x := (Rleb a x && Rleb x b)%bool in
  Spline (fun x => if inside x then c + (d - c) / (b - a) * (x - a) else 0) (fun x => if inside x then (d - c) / (b - a) else 0) (fun _ => 0).
Definition two : maker := fun k z y =>
  match k, z, y with 1%nat, [a; b], [c; d] => if Rltb a b then Ok (line a b c d) else Err ValueError | _, _, _ => Err ValueError end.
Lemma two_inv : forall k z y s, two k z y = Ok s -> exists a b c d, k = 1%nat /\ z = [a; b] /\ y = [c; d] /\ a < b /\ s = line a b c d.
Proof.
  intros k z y s H. unfold two in H. destruct k as [|[|k]]; try discriminate. destruct z as [|a [|b [|]]]; try discriminate. destruct y as [|c [|d [|]]]; try discriminate.
  destruct (Rltb a b) eqn:L; [|discriminate]. apply Rltb_true in L. exists a, b, c, d. repeat split; auto. congruence.
Qed.
Lemma line_in : forall a b c d x, a <= x <= b -> value (line a b c d) x = c + (d - c) / (b - a) * (x - a).
Proof. intros a b c d x H. cbn. rewrite (proj2 (Rleb_true a x)), (proj2 (Rleb_true x b)) by lra. reflexivity. Qed.
Lemma two_splines : splines two.
Proof.
  split; [|split].
  - intros k z y s H. apply two_inv in H. destruct H as (a & b & c & d & -> & -> & -> & L & ->). cbn [length]. repeat (split; [lia|]). split; [|split].
    + intros i j [A B]. cbn in B. destruct i as [|[|i]], j as [|[|j]]; try lia. cbn. exact L.
    + intros [|[|i]] Hi; [| |lia]; cbn [nth]; rewrite line_in by lra; field; lra.
    + intros x Hx. cbn in *. destruct Hx as [Hx|Hx].
      * rewrite (proj2 (Rleb_false a x)) by exact Hx. auto.
      * rewrite (proj2 (Rleb_false x b)) by exact Hx. rewrite andb_false_r. auto.
  - intros k z y s t H. apply two_inv in H. destruct H as (a & b & c & d & -> & -> & -> & L & ->). exists (line a b (t * c) (t * d)). split.
    + cbn. rewrite (proj2 (Rltb_true a b) L). reflexivity.
    + intros x. cbn. destruct (Rleb a x && Rleb x b)%bool; [field; lra|lra].
  - intros k z y s a b c K H. apply two_inv in H. destruct H as (? & ? & ? & ? & -> & _). lia.
Qed.
Lemma two_straight : straight two.
Proof.
  intros z y s a b t H. apply two_inv in H. destruct H as (p & q & c & d & _ & -> & -> & L & ->). cbn [hd last]. intros A T B _.
  rewrite !line_in by lra. field. lra.
Qed.
(** Densities 1 and 3 at redshifts 0 and 1, range [0, 1/2]: the largest density of the range is that interpolated at its limit. *)
Example C73_linear_case : exists m, smask_new two 0 [0; 1] [1; 3] (Some (0, 1 / 2)) None 1%nat = Ok m /\ s_norm m = / 2.
Proof.
  unfold smask_new. cbn [forallb last]. rewrite !(proj2 (Rleb_true _ _)) by lra. cbn [andb]. unfold s_prepare, default_norm, set_interp. unfold two at 1. rewrite (proj2 (Rltb_true 0 1)) by lra. cbn [bind map].
  unfold Mask_Model.between. rewrite (proj2 (Rleb_true 0 0)), (proj2 (Rleb_true 0 (1 / 2))), (proj2 (Rleb_true 0 1)), (proj2 (Rleb_false 1 (1 / 2))) by lra. cbn [andb select_by list_max fold_left].
  rewrite !line_in by lra.
  replace (Rmax (Rmax 1 (1 + (3 - 1) / (1 - 0) * (0 - 0))) (1 + (3 - 1) / (1 - 0) * (1 / 2 - 0))) with 2 by (unfold Rmax; repeat destruct Rle_dec; lra).
  unfold fdiv. destruct (Req_EM_T 2 0); [lra|]. cbn [bind two]. rewrite (proj2 (Rltb_true 0 1)) by lra. cbn [bind]. eexists. split; [reflexivity|]. cbn. lra.
Qed.
