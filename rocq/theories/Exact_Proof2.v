(** Where a linear interpolation takes its largest value. *)
Require Import Reals Lra Lia List Bool.
From Verif Require Import Base Mask_Model Mask_Spec Mask_Proof Mask_Thm.
Import ListNotations.
Open Scope R_scope.

Lemma lin_top : forall z y x, sorted z -> length z = length y -> Forall (fun v => v <= 1) y -> lin z y x = 1 ->
  In (x, 1) (combine z y) \/ exists a b, In (a, 1) (combine z y) /\ In (b, 1) (combine z y) /\ a < x < b /\ forall c, In c z -> c <= a \/ b <= c.
Proof.
  induction z as [|z0 z IH]; intros y x S L F H; [cbn in H; lra|].
  destruct z as [|z1 z]; [destruct y; cbn in H; lra|]. destruct y as [|y0 y]; [cbn in H; lra|]. destruct y as [|y1 y]; [cbn in H; lra|].
  pose proof S as S0. apply sorted_cons in S. destruct S as [Lt S]. rewrite lin_step in H. inversion F as [|? ? F0 F1]; subst. inversion F1 as [|? ? F2 F3]; subst.
  destruct (Rltb x z0) eqn:A; [lra|]. apply Rltb_false in A. destruct (Rleb x z1) eqn:B.
  - apply Rleb_true in B. destruct (Req_dec x z0) as [->|D0].
    { left. left. f_equal. replace (z0 - z0) with 0 in H by ring. unfold Rdiv in H. lra. }
    destruct (Req_dec x z1) as [->|D1].
    { left. right. left. f_equal. replace ((z1 - z0) / (z1 - z0)) with 1 in H by (field; lra). lra. }
    right. exists z0, z1. assert (T : 0 < (x - z0) / (z1 - z0) < 1).
    { split; [apply Rdiv_lt_0_compat; lra|]. apply Rmult_lt_reg_r with (z1 - z0); [lra|]. unfold Rdiv. rewrite Rmult_assoc, Rinv_l by lra. lra. }
    set (t := (x - z0) / (z1 - z0)) in *. assert (y0 = 1 /\ y1 = 1) as [-> ->] by (split; nra).
    split; [left; auto|]. split; [right; left; auto|]. split; [lra|]. intros c [<-|[<-|I]]; [lra|lra|]. right. apply Rlt_le. apply sorted_head with z; auto.
  - apply Rleb_false in B. destruct (IH (y1 :: y) x S ltac:(cbn in *; lia) F1 H) as [I|(a & b & I1 & I2 & AB & C)].
    + left. right. exact I.
    + right. exists a, b. split; [right; exact I1|]. split; [right; exact I2|]. split; auto. intros c [<-|I]; [|apply C; auto].
      left. apply in_combine_l in I1. apply Rlt_le. apply sorted_head with (z1 :: z); auto.
Qed.
Lemma combine_map_inv : forall {A B C} (f : B -> C) (a : list A) (b : list B) x y, In (x, y) (combine a (map f b)) -> exists y', In (x, y') (combine a b) /\ y = f y'.
Proof.
  induction a as [|a l IH]; intros [|b m] x y I; try easy. destruct I as [I|I]; [injection I as <- <-; exists b; split; [left|]; auto|].
  destruct (IH m x y I) as (y' & I' & E). exists y'. split; [right|]; auto.
Qed.
Lemma top_knot : forall m n z, well m -> default_norm m n -> tprob m n z = 1 -> exists a b, t_lo m <= a <= t_hi m /\ In (a, b) (combine (t_z m) (t_nbar m)) /\ n * b = 1.
Proof.
  intros m n z W D T. pose proof W as (S & L & N & F). pose proof (default_norm_pos m n W D) as Pn.
  unfold tprob in T. destruct (between _ _ z) eqn:B; [|lra]. apply between_spec in B.
  assert (K : forall a, In (a, 1) (combine (t_z m) (map (fun b => Rmin (n * b) 1) (t_nbar m))) -> t_lo m <= a <= t_hi m -> exists a b, t_lo m <= a <= t_hi m /\ In (a, b) (combine (t_z m) (t_nbar m)) /\ n * b = 1).
  { intros a I Ra. apply combine_map_inv in I. destruct I as (b & I & E). exists a, b. split; auto. split; auto. pose proof (default_norm_knot m n a b W D Ra I). unfold Rmin in E. destruct (Rle_dec (n * b) 1); lra. }
  destruct (lin_top _ (map (fun b => Rmin (n * b) 1) (t_nbar m)) z S ltac:(rewrite map_length; auto) ltac:(apply Forall_forall; intros v I; apply in_map_iff in I; destruct I as (b & <- & _); apply Rmin_r) T) as [I|(a & b & I1 & I2 & AB & C)].
  - eapply K; eauto.
  - destruct D as (Ne & _). destruct (nbar_in_range m) as [|v l] eqn:E; [easy|]. assert (Iv : In v (nbar_in_range m)) by (rewrite E; left; auto).
    unfold nbar_in_range in Iv. apply select_by_In in Iv. destruct Iv as (c & Ic & Bc). apply between_spec in Bc. apply in_combine_l in Ic.
    destruct (C c Ic); [apply (K a I1)|apply (K b I2)]; lra.
Qed.
