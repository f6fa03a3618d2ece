(** Properties of tabulated masks of order 2 and more. *)
Require Import Reals ZArith List Bool Lra Lia Arith.
From Verif Require Import Base Cutsky_Model Box_Model Remap_Model Remap_Proof2 Mask_Model Mask_Spec Mask_Proof Smear_Model Smear_Spec Density_Proof Smear_Proof Spline_Model Spline_Spec.
Import ListNotations.
Open Scope R_scope.

(** ** Maximum of a list *)
Lemma argmax_from_spec : forall l pre best m, let i := argmax_from l (length pre) best m in
  (best < length pre)%nat -> nth best pre 0 = m -> (forall j, (j < length pre)%nat -> nth j pre 0 <= m) ->
  (i < length (pre ++ l))%nat /\ forall j, (j < length (pre ++ l))%nat -> nth j (pre ++ l) 0 <= nth i (pre ++ l) 0.
Proof.
  induction l as [|a l IH]; intros pre best m i B M H; cbn [argmax_from] in i.
  - subst i. rewrite app_nil_r. split; auto. intros j J. rewrite M. auto.
  - replace (pre ++ a :: l) with ((pre ++ [a]) ++ l) by (rewrite <- app_assoc; reflexivity). subst i.
    replace (S (length pre)) with (length (pre ++ [a])) by (rewrite app_length; cbn; lia).
    assert (Na : nth (length pre) (pre ++ [a]) 0 = a) by (rewrite app_nth2, Nat.sub_diag by lia; reflexivity).
    assert (Np : forall j, (j < length pre)%nat -> nth j (pre ++ [a]) 0 = nth j pre 0) by (intros; apply app_nth1; auto).
    destruct (Rltb m a) eqn:L.
    + apply Rltb_true in L. apply IH.
      * rewrite app_length; cbn; lia.
      * auto.
      * intros j J. rewrite app_length in J. cbn in J. destruct (Nat.eq_dec j (length pre)) as [->|]; [lra|]. rewrite Np by lia. specialize (H j ltac:(lia)). lra.
    + apply Rltb_false in L. apply IH.
      * rewrite app_length; cbn; lia.
      * rewrite Np; auto.
      * intros j J. rewrite app_length in J. cbn in J. destruct (Nat.eq_dec j (length pre)) as [->|]; [lra|]. rewrite Np by lia. apply H; lia.
Qed.
Lemma argmax_spec : forall l, l <> [] -> (argmax l < length l)%nat /\ forall j, (j < length l)%nat -> nth j l 0 <= nth (argmax l) l 0.
Proof.
  intros [|a l] N; [easy|]. unfold argmax. apply (argmax_from_spec l [a] 0 a); cbn; auto. intros [|j] J; [lra|lia].
Qed.

(** ** Tables *)
Lemma enough : forall n k, (2 <= k)%nat -> (k < n)%nat -> (2 <= n * k)%nat.
Proof. intros n k A B. apply (Nat.le_trans _ (1 * k)); [lia|]. apply Nat.mul_le_mono_r. lia. Qed.
Lemma rising_bounds : forall z i, rising z -> (i < length z)%nat -> hd 0 z <= nth i z 0 <= last z 0.
Proof.
  intros z i Hr Hi. rewrite last_nth. split.
  - destruct z as [|a z]; [cbn in Hi; lia|]. cbn [hd]. destruct i as [|i]; [cbn; lra|]. left. apply (Hr 0%nat (S i)); lia.
  - destruct (Nat.eq_dec i (length z - 1)) as [->|]; [lra|]. left. apply Hr. lia.
Qed.
Lemma rising_ends : forall z, rising z -> (2 <= length z)%nat -> hd 0 z < last z 0.
Proof.
  intros z Hr L. rewrite last_nth. replace (hd 0 z) with (nth 0 z 0) by (destruct z; auto). apply Hr. lia.
Qed.

Section Splines.
Variable make : maker.
Hypothesis splines_make : splines make.

Lemma make_inv : forall k z y s, make k z y = Ok s -> (1 <= k <= 5)%nat /\ (k < length z)%nat /\ length z = length y /\ rising z /\
  (forall i, (i < length z)%nat -> value s (nth i z 0) = nth i y 0) /\ (forall x, x < hd 0 z \/ last z 0 < x -> value s x = 0 /\ slope s x = 0 /\ curvature s x = 0).
Proof. intros. destruct splines_make as [A _]. eapply A; eauto. Qed.

Lemma new_inv : forall fuel z nbar range norm order m, smask_new make fuel z nbar range norm order = Ok m ->
  Forall (Rle 0) nbar /\ s_z m = z /\ s_nbar m = nbar /\ s_order m = order /\ (s_lo m, s_hi m) = match range with Some r => r | None => (hd 0 z, last z 0) end /\
  hd 0 z <= s_lo m /\ s_hi m <= last z 0 /\
  match norm with Some n => s_norm m = n | None => default_norm make fuel z nbar (s_lo m) (s_hi m) order = Ok (s_norm m) end /\
  make order z (map (fun b => Rmin (s_norm m * b) 1) nbar) = Ok (s_interp m).
Proof.
  intros fuel z nbar range norm order m H. unfold smask_new in H.
  destruct (forallb _ nbar) eqn:F; [|discriminate].
  assert (P : Forall (Rle 0) nbar). { apply Forall_forall. rewrite forallb_forall in F. intros b Hb. apply Rleb_true. auto. }
  destruct z as [|z0 z]; [discriminate|].
  destruct (match range with Some r => r | None => (z0, last (z0 :: z) 0) end) as [lo hi] eqn:Er.
  destruct (Rleb z0 lo && Rleb hi (last (z0 :: z) 0)) eqn:B; [|discriminate].
  apply andb_true_iff in B. destruct B as [B1 B2]. apply Rleb_true in B1. apply Rleb_true in B2.
  unfold s_prepare in H. destruct (match norm with Some n => Ok n | None => default_norm make fuel (z0 :: z) nbar lo hi order end) as [n|] eqn:En; [|discriminate].
  cbn [bind] in H. unfold set_interp in H. destruct (make order (z0 :: z) _) as [s|] eqn:Es; [|discriminate]. cbn [bind] in H.
  inversion H; subst m. cbn [s_z s_nbar s_order s_lo s_hi s_norm s_interp hd].
  repeat (split; [solve [auto | symmetry; exact Er | destruct norm; [congruence|auto] ]|]). exact Es.
Qed.

(** ** C73: outside of the range the probability is zero; at tabulated redshifts it is the density times the normalization, at most 1. *)
Theorem C73_outside : forall fuel z nbar range norm order m x, smask_new make fuel z nbar range norm order = Ok m ->
  (let '(lo, hi) := match range with Some r => r | None => (hd 0 z, last z 0) end in x < lo \/ hi < x) -> smask_prob m x = 0.
Proof.
  intros fuel z nbar range norm order m x H O. destruct (new_inv _ _ _ _ _ _ _ H) as (_ & _ & _ & _ & Er & _). unfold smask_prob.
  rewrite <- Er in O. destruct (Mask_Model.between (s_lo m) (s_hi m) x) eqn:B; [|reflexivity]. apply between_spec in B. lra.
Qed.
Print Assumptions C73_outside.

Theorem C73_nodes : forall fuel z nbar range norm order m i, smask_new make fuel z nbar range norm order = Ok m -> (i < length z)%nat ->
  (let '(lo, hi) := match range with Some r => r | None => (hd 0 z, last z 0) end in lo <= nth i z 0 <= hi) ->
  smask_prob m (nth i z 0) = Rmin (s_norm m * nth i nbar 0) 1 /\ forall n, norm = Some n -> s_norm m = n.
Proof.
  intros fuel z nbar range norm order m i H Hi Hr. destruct (new_inv _ _ _ _ _ _ _ H) as (_ & _ & _ & _ & Er & _ & _ & Hn & Hs).
  destruct (make_inv _ _ _ _ Hs) as (_ & _ & HL & _ & Hv & _). rewrite map_length in HL. split.
  - rewrite <- Er in Hr. unfold smask_prob. destruct (Mask_Model.between (s_lo m) (s_hi m) (nth i z 0)) eqn:B.
    + rewrite Hv by auto. rewrite nth_indep with (d' := (fun b => Rmin (s_norm m * b) 1) 0) by (rewrite map_length; lia).
      rewrite map_nth with (f := fun b => Rmin (s_norm m * b) 1). reflexivity.
    + apply between_spec in Hr. congruence.
  - intros n ->. auto.
Qed.
Print Assumptions C73_nodes.

(** When no tabulated density has to be cut, the mask is the interpolated density times the normalization. *)
Theorem C73_uncut : forall fuel z nbar range norm order m s, smask_new make fuel z nbar range norm order = Ok m -> make order z nbar = Ok s ->
  (forall b, In b nbar -> s_norm m * b <= 1) -> forall x, s_lo m <= x <= s_hi m -> smask_prob m x = s_norm m * value s x.
Proof.
  intros fuel z nbar range norm order m s H Hs Hc x Hx. destruct (new_inv _ _ _ _ _ _ _ H) as (_ & _ & _ & _ & _ & _ & _ & _ & Hm).
  assert (E : map (fun b => Rmin (s_norm m * b) 1) nbar = map (Rmult (s_norm m)) nbar) by (apply map_ext_in; intros b Hb; apply Rmin_left; auto).
  rewrite E in Hm. destruct splines_make as (_ & A & _). destruct (A _ _ _ _ (s_norm m) Hs) as (s' & Hs' & Hv).
  assert (s' = s_interp m) by congruence. subst s'. unfold smask_prob. apply between_spec in Hx. rewrite Hx. auto.
Qed.
Print Assumptions C73_uncut.

(** ** Search of the maximum *)
Definition nzs (s : spline) (z : list R) (order : nat) : list R := map (value s) (linspace (hd 0 z) (last z 0) (length z * order)).
Lemma nzs_length : forall s z order, length (nzs s z order) = (length z * order)%nat.
Proof. intros. unfold nzs. rewrite map_length, linspace_length. reflexivity. Qed.
Lemma nzs_nth : forall s z order i, (i < length z * order)%nat -> nth i (nzs s z order) 0 = value s (nth i (linspace (hd 0 z) (last z 0) (length z * order)) 0).
Proof.
  intros. unfold nzs. rewrite nth_indep with (d' := value s 0) by (rewrite map_length, linspace_length; auto). apply map_nth.
Qed.
Lemma grid_fine : forall z order i, (i < length z * order)%nat -> fine_point z order (nth i (linspace (hd 0 z) (last z 0) (length z * order)) 0).
Proof. intros. exists i. split; auto. apply linspace_nth; auto. Qed.
Lemma grid_in : forall z order i, rising z -> (2 <= length z)%nat -> (1 <= order)%nat -> (i < length z * order)%nat ->
  hd 0 z <= nth i (linspace (hd 0 z) (last z 0) (length z * order)) 0 <= last z 0.
Proof.
  intros z order i Hr L O Hi. rewrite linspace_nth by auto. pose proof (rising_ends z Hr L). set (n := (length z * order)%nat) in *.
  assert (2 <= n)%nat by (unfold n; nia). assert (0 < INR (n - 1)) by (apply lt_0_INR; lia).
  assert (0 <= INR i / INR (n - 1)) by (apply Rmult_le_pos; [apply pos_INR|left; apply Rinv_0_lt_compat; auto]).
  assert (INR i / INR (n - 1) <= 1).
  { apply (Rmult_le_reg_r (INR (n - 1))); auto. unfold Rdiv. rewrite Rmult_assoc, Rinv_l, Rmult_1_r, Rmult_1_l by lra. apply le_INR. lia. }
  split; nra.
Qed.
Lemma fine_grid : forall z order x, fine_point z order x -> exists i, (i < length z * order)%nat /\ x = nth i (linspace (hd 0 z) (last z 0) (length z * order)) 0.
Proof. intros z order x (i & Hi & ->). exists i. split; auto. symmetry. apply linspace_nth; auto. Qed.
Lemma search_inv : forall fuel lo hi z order s m, (2 <= length z * order)%nat -> search_max fuel lo hi z order s = Ok m ->
  (exists x, m = value s x) /\ forall x, fine_point z order x -> value s x <= m.
Proof.
  intros fuel lo hi z order s m L H. unfold search_max in H. fold (nzs s z order) in H.
  match type of H with bind ?e _ = _ => destruct e as [v|] eqn:E end; [|discriminate]. cbn [bind] in H.
  destruct (existsb (fun w => Rltb v w) (nzs s z order)) eqn:X; [discriminate|]. inversion H; subst v. split.
  - assert (Hn : nzs s z order <> []) by (intros N; pose proof (nzs_length s z order) as M; rewrite N in M; cbn in M; lia).
    destruct (argmax_spec _ Hn) as [Hi _]. rewrite nzs_length in Hi.
    destruct (allclose _ _).
    + inversion E. exists (nth (argmax (nzs s z order)) (linspace (hd 0 z) (last z 0) (length z * order)) 0). apply nzs_nth; auto.
    + match type of E with bind ?e _ = _ => destruct e as [x|] eqn:Ex end; [|discriminate]. cbn [bind] in E. inversion E. eauto.
  - intros x Hx. destruct (fine_grid _ _ _ Hx) as (i & Hi & ->). rewrite <- nzs_nth by auto.
    destruct (Rle_lt_dec (nth i (nzs s z order) 0) m) as [|Hl]; auto. exfalso.
    assert (T : existsb (fun w => Rltb m w) (nzs s z order) = true).
    { apply existsb_exists. exists (nth i (nzs s z order) 0). split; [apply nth_In; rewrite nzs_length; auto|apply Rltb_true; auto]. }
    congruence.
Qed.

(** Without normalization given, it is the inverse of a value of the interpolated density, in the table, not below any value on the fine grid. *)
Theorem C73_default : forall fuel z nbar range order m, (2 <= order)%nat -> smask_new make fuel z nbar range None order = Ok m ->
  exists s x, make order z nbar = Ok s /\ hd 0 z <= x <= last z 0 /\ 0 < value s x /\ s_norm m = / value s x /\ (forall t, fine_point z order t -> value s t <= value s x) /\
    ((forall b, In b nbar -> b <= value s x) -> forall t, s_lo m <= t <= s_hi m -> smask_prob m t = value s t / value s x).
Proof.
  intros fuel z nbar range order m O H. pose proof H as H0. destruct (new_inv _ _ _ _ _ _ _ H) as (Hp & _ & _ & _ & _ & _ & _ & Hn & Hm).
  unfold default_norm in Hn. unfold set_interp in Hn. destruct (make order z nbar) as [s|] eqn:Es; [|discriminate]. cbn [bind] in Hn.
  destruct (make_inv _ _ _ _ Es) as (_ & HL & HE & Hr & Hv & Hout).
  assert (Hs : (do m0 <- search_max fuel (s_lo m) (s_hi m) z order s; fdiv 1 m0) = Ok (s_norm m)) by (destruct order as [|[|k]]; try lia; exact Hn).
  destruct (search_max fuel (s_lo m) (s_hi m) z order s) as [v|] eqn:Ev; [|discriminate]. cbn [bind] in Hs.
  destruct (search_inv _ _ _ _ _ _ _ (enough _ _ O HL) Ev) as [[x Hx] Hf]. unfold fdiv in Hs. destruct (Req_EM_T v 0) as [|Hv0]; [discriminate|].
  assert (Hnorm : s_norm m = / v) by (inversion Hs; lra). exists s, x. split; [auto|].
  assert (In_ : hd 0 z <= x <= last z 0).
  { split; apply Rnot_lt_le; intros C; destruct (Hout x ltac:(auto)) as [Z0 _]; congruence. }
  split; auto. assert (Pos : 0 < v).
  { assert (0 <= value s (hd 0 z)).
    { replace (hd 0 z) with (nth 0 z 0) by (destruct z; auto). rewrite Hv by lia. rewrite Forall_forall in Hp. apply Hp, nth_In. lia. }
    assert (value s (hd 0 z) <= v).
    { apply Hf. exists 0%nat. split; [pose proof (enough _ _ O HL); lia|]. cbn [INR]. unfold Rdiv. ring. }
    lra. }
  rewrite <- Hx. repeat (split; [solve [auto]|]). intros Hc t Ht. rewrite (C73_uncut _ _ _ _ _ _ _ _ H0 Es) with (x := t); auto.
  - rewrite Hnorm. unfold Rdiv. ring.
  - intros b Hb. rewrite Hnorm. apply (Rmult_le_reg_l v); auto. rewrite <- Rmult_assoc, Rinv_r, Rmult_1_l by lra. specialize (Hc b Hb). lra.
Qed.
Print Assumptions C73_default.

(** A constant density selects everything in the range. *)
Theorem C73_flat : forall fuel z c s order lo hi, (2 <= order)%nat -> 0 < c -> hd 0 z <= lo -> hi <= last z 0 -> make order z (map (fun _ => c) z) = Ok s ->
  exists m, smask_new make fuel z (map (fun _ => c) z) (Some (lo, hi)) None order = Ok m /\ s_norm m = / c /\ forall x, lo <= x <= hi -> smask_prob m x = 1.
Proof.
  intros fuel z c s order lo hi O C Hlo Hhi Es. destruct (make_inv _ _ _ _ Es) as (_ & HL & HE & Hr & Hv & _).
  destruct splines_make as (_ & Hh & Hq). assert (Hc : forall x, hd 0 z <= x <= last z 0 -> value s x = c).
  { intros x Hx. destruct (Hq order z _ s 0 0 c O Es) with (x := x) as [V _]; auto.
    - unfold tabulates. apply map_ext. intros. ring.
    - rewrite V. ring. }
  assert (Hnz : forall i, (i < length z * order)%nat -> nth i (nzs s z order) 0 = c).
  { intros i Hi. rewrite nzs_nth by auto. apply Hc, grid_in; auto; lia. }
  assert (Hin : forall v, In v (nzs s z order) -> v = c).
  { intros v Hv0. destruct (In_nth _ _ 0 Hv0) as (i & Hi & <-). rewrite nzs_length in Hi. auto. }
  assert (Hn : nzs s z order <> []) by (intros N; pose proof (nzs_length s z order) as M; rewrite N in M; cbn [length] in M; pose proof (enough _ _ O HL); lia).
  assert (Ev : search_max fuel lo hi z order s = Ok c).
  { unfold search_max. fold (nzs s z order). assert (A : allclose (nzs s z order) (hd 0 (nzs s z order)) = true).
    { unfold allclose. apply forallb_forall. intros v Hi. apply Rleb_true. rewrite (Hin v Hi), (Hin (hd 0 (nzs s z order))) by (destruct (nzs s z order); [easy|left; auto]).
      rewrite Rminus_diag_eq, Rabs_R0 by auto. pose proof (Rabs_pos c). lra. }
    rewrite A. cbn [bind]. destruct (argmax_spec _ Hn) as [Hi _]. rewrite nzs_length in Hi. rewrite Hnz by auto.
    destruct (existsb _ _) eqn:X; [|reflexivity]. apply existsb_exists in X. destruct X as (v & Hi' & Lv). apply Rltb_true in Lv. rewrite (Hin v Hi') in Lv. lra. }
  assert (En : default_norm make fuel z (map (fun _ => c) z) lo hi order = Ok (/ c)).
  { unfold default_norm, set_interp. rewrite Es. cbn [bind]. destruct order as [|[|k]]; try lia. rewrite Ev. cbn [bind]. unfold fdiv. destruct (Req_EM_T c 0); [lra|]. f_equal. lra. }
  assert (Ek : map (fun b => Rmin (/ c * b) 1) (map (fun _ => c) z) = map (Rmult (/ c)) (map (fun _ : R => c) z)).
  { rewrite !map_map. apply map_ext. intros _. rewrite Rinv_l by lra. apply Rmin_left. lra. }
  destruct (Hh _ _ _ _ (/ c) Es) as (s' & Es' & Hs'). rewrite <- Ek in Es'.
  exists (SMask z (map (fun _ => c) z) lo hi order (/ c) s'). split; [|split; [reflexivity|]].
  - unfold smask_new. assert (F : forallb (fun b => Rleb 0 b) (map (fun _ : R => c) z) = true).
    { apply forallb_forall. intros b Hb. apply in_map_iff in Hb. destruct Hb as (_ & <- & _). apply Rleb_true. lra. }
    rewrite F. destruct z as [|z0 z']; [cbn in HL; lia|]. cbn [hd] in Hlo. apply Rleb_true in Hlo. apply Rleb_true in Hhi. rewrite Hlo, Hhi. cbn [andb].
    unfold s_prepare. rewrite En. cbn [bind]. unfold set_interp. rewrite Es'. reflexivity.
  - intros x Hx. unfold smask_prob. cbn [s_lo s_hi s_interp]. pose proof Hx as B. apply between_spec in B. rewrite B, Hs', Hc by lra. field. lra.
Qed.
Print Assumptions C73_flat.

(** ** Parabolas *)
Definition poly (a b c x : R) : R := a * x ^ 2 + b * x + c.
Lemma poly_spline : forall k z s a b c, (2 <= k)%nat -> make k z (map (poly a b c) z) = Ok s -> forall x, hd 0 z <= x <= last z 0 ->
  value s x = poly a b c x /\ slope s x = 2 * a * x + b /\ curvature s x = 2 * a.
Proof. intros k z s a b c Hk Hs. destruct splines_make as (_ & _ & H). apply H with (k := k) (y := map (poly a b c) z); auto. reflexivity. Qed.

Lemma nz_nil : forall s z order, (0 < length z * order)%nat -> nzs s z order <> [].
Proof. intros s z order H N. pose proof (nzs_length s z order) as M. rewrite N in M. cbn in M. lia. Qed.
Lemma nz_hd : forall s z order, (0 < length z * order)%nat -> hd 0 (nzs s z order) = value s (hd 0 z).
Proof.
  intros s z order H. replace (hd 0 (nzs s z order)) with (nth 0 (nzs s z order) 0) by (destruct (nzs s z order); auto). rewrite nzs_nth by auto.
  rewrite linspace_nth by auto. f_equal. cbn [INR]. unfold Rdiv. ring.
Qed.
Lemma grid_last : forall z order, (2 <= length z * order)%nat -> nth (length z * order - 1) (linspace (hd 0 z) (last z 0) (length z * order)) 0 = last z 0.
Proof. intros z order H. pose proof (linspace_last (hd 0 z) (last z 0) (length z * order) H) as E. rewrite (last_nth (linspace _ _ _)), linspace_length in E. exact E. Qed.
(** An increasing spline has its maximum at the end of the grid. *)
Lemma argmax_increasing : forall s z order, rising z -> (2 <= length z)%nat -> (1 <= order)%nat ->
  (forall x y, hd 0 z <= x -> x < y -> y <= last z 0 -> value s x < value s y) -> argmax (nzs s z order) = (length z * order - 1)%nat.
Proof.
  intros s z order Hr L O H. assert (N : (2 <= length z * order)%nat) by nia. destruct (argmax_spec _ (nz_nil s z order ltac:(lia))) as [Hi Hm].
  rewrite nzs_length in *. destruct (Nat.eq_dec (argmax (nzs s z order)) (length z * order - 1)) as [|Ne]; auto. exfalso.
  specialize (Hm (length z * order - 1)%nat ltac:(lia)). rewrite !nzs_nth in Hm by lia. rewrite grid_last in Hm by auto.
  pose proof (grid_in z order _ Hr L O Hi) as B. set (x := nth (argmax (nzs s z order)) (linspace (hd 0 z) (last z 0) (length z * order)) 0) in *.
  assert (x < last z 0).
  { unfold x. rewrite linspace_nth by lia. pose proof (rising_ends z Hr L). assert (0 < INR (length z * order - 1)) by (apply lt_0_INR; lia).
    assert (INR (argmax (nzs s z order)) / INR (length z * order - 1) < 1).
    { apply (Rmult_lt_reg_r (INR (length z * order - 1))); auto. unfold Rdiv. rewrite Rmult_assoc, Rinv_l, Rmult_1_r, Rmult_1_l by lra. apply lt_INR. lia. }
    nra. }
  specialize (H x (last z 0)). lra.
Qed.
Lemma min_first : forall s z order, rising z -> (2 <= length z)%nat -> (1 <= order)%nat ->
  (forall x y, hd 0 z <= x -> x < y -> y <= last z 0 -> value s x < value s y) -> list_min (nzs s z order) = value s (hd 0 z).
Proof.
  intros s z order Hr L O H. assert (N : (2 <= length z * order)%nat) by nia. apply Rle_antisym.
  - rewrite <- (nz_hd s z order) by lia. apply list_min_le. destruct (nzs s z order) eqn:Q; [exfalso; apply (nz_nil s z order); auto; lia|left; auto].
  - apply list_min_ge; [apply nz_nil; lia|]. intros v Hv. destruct (In_nth _ _ 0 Hv) as (i & Hi & <-). rewrite nzs_length in Hi. rewrite nzs_nth by auto.
    pose proof (grid_in z order i Hr L O Hi) as B. set (x := nth i _ 0) in *. destruct (Rle_lt_or_eq_dec _ _ (proj1 B)) as [Lt|Eq]; [left; apply H; lra|rewrite <- Eq; lra].
Qed.

(** Densities with a maximum in the range: the search ends, and misses the maximum by less than one millionth of the variations. *)
Theorem C73_parabola : forall fuel z a b c s order lo hi, (1 <= fuel)%nat -> (2 <= order)%nat -> make order z (map (poly a b c) z) = Ok s ->
  a < 0 -> (forall x, hd 0 z <= x <= last z 0 -> 0 < poly a b c x) -> hd 0 z <= lo -> hi <= last z 0 -> lo <= - b / (2 * a) <= hi -> ~ allclose (nzs s z order) (hd 0 (nzs s z order)) = true ->
  let top := poly a b c (- b / (2 * a)) in
  exists nbar_max, default_norm make fuel z (map (poly a b c) z) lo hi order = Ok (/ nbar_max) /\ nbar_max <= top /\ top - nbar_max <= 1 / 10 ^ 6 * top.
Proof.
  intros fuel z a b c s order lo hi F O Es Ha Hpos Hlo Hhi Hvx NC top. destruct (make_inv _ _ _ _ Es) as (_ & HL & HE & Hr & Hv & _).
  pose proof (poly_spline _ _ _ _ _ _ O Es) as Hq. set (v := - b / (2 * a)) in *. assert (Hb : 2 * a * v + b = 0) by (unfold v; field; lra).
  assert (Htop : forall x, poly a b c x <= top) by (intros x; unfold top; assert (top - poly a b c x = - a * (x - v) ^ 2) by (unfold top, poly; replace b with (- (2 * a * v)) by lra; ring); unfold top in *; pose proof (pow2_ge_0 (x - v)); nra).
  assert (N : (2 <= length z * order)%nat) by (apply enough; auto). destruct (argmax_spec _ (nz_nil s z order ltac:(lia))) as [Hi Hm]. rewrite nzs_length in Hi.
  pose proof (grid_in z order _ Hr ltac:(lia) ltac:(lia) Hi) as B. set (x := nth (argmax (nzs s z order)) (linspace (hd 0 z) (last z 0) (length z * order)) 0) in *.
  destruct (Hq x B) as (Vx & Sx & Cx). destruct (Hq v ltac:(lra)) as (Vv & Sv & Cv).
  assert (Nx : nth (argmax (nzs s z order)) (nzs s z order) 0 = poly a b c x) by (rewrite nzs_nth by auto; exact Vx).
  set (mn := list_min (nzs s z order)). assert (Hmn : 0 <= mn).
  { unfold mn. apply list_min_ge; [apply nz_nil; lia|]. intros w Hw. destruct (In_nth _ _ 0 Hw) as (i & Hi' & <-). rewrite nzs_length in Hi'. rewrite nzs_nth by auto.
    pose proof (grid_in z order i Hr ltac:(lia) ltac:(lia) Hi') as Bi. destruct (Hq _ Bi) as (-> & _). left. apply Hpos. auto. }
  assert (Hsp : mn < poly a b c x).
  { destruct (Rle_lt_dec (poly a b c x) mn) as [Hle|]; auto. exfalso. apply NC. unfold allclose. apply forallb_forall. intros w Hw. apply Rleb_true.
    assert (Q : forall u, In u (nzs s z order) -> u = mn).
    { intros u Hu. pose proof (list_min_le _ _ Hu). fold mn in H. destruct (In_nth _ _ 0 Hu) as (i & Hi' & Eu). specialize (Hm i Hi'). rewrite Nx, Eu in Hm. lra. }
    rewrite (Q w Hw), (Q (hd 0 (nzs s z order))) by (destruct (nzs s z order); [destruct Hw|left; auto]). rewrite Rminus_diag_eq, Rabs_R0 by auto. pose proof (Rabs_pos mn). lra. }
  assert (Hmx : poly a b c x <= top) by apply Htop.
  assert (S0 : exists w, solve_newton fuel lo hi (slope s) (curvature s) (fun x0 xnew => Rltb (Rabs (value s xnew - value s x0)) (1 / 10 ^ 6 * (poly a b c x - mn))) x = Ok w /\
               (w = v \/ w = x /\ top - poly a b c x < 1 / 10 ^ 6 * (poly a b c x - mn))).
  { unfold solve_newton. rewrite Cx, Sx. destruct (Req_EM_T (2 * a) 0); [lra|]. replace (x - (2 * a * x + b) / (2 * a)) with v by (unfold v; field; lra).
    rewrite Rmax_left, Rmin_left by lra. destruct fuel as [|fuel]; [lia|]. cbn [newton_loop]. rewrite Vx, Vv. fold top.
    destruct (Rltb (Rabs (top - poly a b c x)) _) eqn:Q.
    - exists x. split; auto. right. split; auto. apply Rltb_true in Q. rewrite Rabs_right in Q by lra. auto.
    - exists v. split; auto. unfold newton_step. rewrite Cv, Sv. destruct (Req_EM_T (2 * a) 0); [lra|]. rewrite Hb. replace (v - 0 / (2 * a)) with v by (field; lra).
      assert (T : Rltb (Rabs (value s v - value s v)) (1 / 10 ^ 6 * (poly a b c x - mn)) = true).
      { apply Rltb_true. rewrite Rminus_diag_eq, Rabs_R0 by auto. apply Rmult_lt_0_compat; lra. }
      destruct fuel; cbn [newton_loop]; rewrite T; auto. }
  destruct S0 as (w & Hw & Hw'). assert (Bw : hd 0 z <= w <= last z 0) by (destruct Hw' as [->|[-> _]]; lra). destruct (Hq w Bw) as (Vw & _ & _).
  assert (Ev : search_max fuel lo hi z order s = Ok (poly a b c w)).
  { unfold search_max. fold (nzs s z order). destruct (allclose _ _); [easy|]. rewrite Nx. fold x. fold mn. rewrite Hw. cbn [bind]. rewrite Vw.
    destruct (existsb _ _) eqn:X; [|reflexivity]. exfalso. apply existsb_exists in X. destruct X as (u & Hu & Lu). apply Rltb_true in Lu.
    destruct (In_nth _ _ 0 Hu) as (i & Hi' & Eu). specialize (Hm i Hi'). rewrite Nx, Eu in Hm. destruct Hw' as [->|[-> _]]; [fold top in Lu; lra|lra]. }
  exists (poly a b c w). split.
  - unfold default_norm, set_interp. rewrite Es. cbn [bind]. destruct order as [|[|k]]; try lia. rewrite Ev. cbn [bind]. unfold fdiv.
    specialize (Hpos w Bw). destruct (Req_EM_T (poly a b c w) 0); [lra|]. f_equal. lra.
  - split; [apply Htop|]. destruct Hw' as [->|[-> G]]; [fold top; lra|]. lra.
Qed.
Print Assumptions C73_parabola.

(** The search ends at a minimum when the density is convex: the table of x^2 from 0 has no mask, although its maximum is at its end. *)
Theorem C73_convex_refuted : forall fuel z s order, (1 <= fuel)%nat -> (2 <= order)%nat -> hd 0 z = 0 -> 1 <= last z 0 -> make order z (map (poly 1 0 0) z) = Ok s ->
  smask_new make fuel z (map (poly 1 0 0) z) None None order = Err ValueError.
Proof.
  intros fuel z s order F O H0 HL Es. destruct (make_inv _ _ _ _ Es) as (_ & Ln & HE & Hr & Hv & _).
  pose proof (poly_spline _ _ _ _ _ _ O Es) as Hq. rewrite H0 in Hq. set (l := last z 0) in *. assert (N : (2 <= length z * order)%nat) by (apply enough; auto).
  assert (Inc : forall x y, hd 0 z <= x -> x < y -> y <= last z 0 -> value s x < value s y).
  { intros x y A B C. fold l in C. rewrite H0 in A. destruct (Hq x ltac:(lra)) as (-> & _). destruct (Hq y ltac:(lra)) as (-> & _). unfold poly. nra. }
  pose proof (argmax_increasing s z order Hr ltac:(lia) ltac:(lia) Inc) as Ax. pose proof (min_first s z order Hr ltac:(lia) ltac:(lia) Inc) as Mn. rewrite H0 in Mn.
  destruct (Hq 0 ltac:(lra)) as (V0 & S0 & C0). destruct (Hq l ltac:(lra)) as (Vl & Sl & Cl).
  assert (Nl : nth (length z * order - 1) (nzs s z order) 0 = l ^ 2) by (rewrite nzs_nth by lia; rewrite grid_last by lia; fold l; rewrite Vl; unfold poly; ring).
  assert (Il : In (l ^ 2) (nzs s z order)) by (rewrite <- Nl; apply nth_In; rewrite nzs_length; lia).
  assert (Ev : search_max fuel 0 l z order s = Err ValueError).
  { unfold search_max. fold (nzs s z order). rewrite Ax, grid_last, Nl, Mn by lia. fold l.
    assert (NC : allclose (nzs s z order) (hd 0 (nzs s z order)) = false).
    { rewrite nz_hd, H0 by lia. rewrite V0. unfold poly. destruct (allclose _ _) eqn:C; auto. unfold allclose in C. rewrite forallb_forall in C. specialize (C _ Il).
      apply Rleb_true in C. replace (1 * 0 ^ 2 + 0 * 0 + 0) with 0 in C by ring. rewrite Rabs_R0, Rabs_right in C by nra. nra. }
    rewrite NC, V0. replace (poly 1 0 0 0) with 0 by (unfold poly; ring).
    unfold solve_newton. rewrite Sl, Cl. destruct (Req_EM_T (2 * 1) 0); [lra|]. replace (l - (2 * 1 * l + 0) / (2 * 1)) with 0 by field.
    rewrite Rmax_left, Rmin_left by lra. destruct fuel as [|fuel]; [lia|]. cbn [newton_loop]. rewrite V0, Vl. replace (poly 1 0 0 0) with 0 by (unfold poly; ring).
    replace (poly 1 0 0 l) with (l ^ 2) by (unfold poly; ring).
    destruct (Rltb (Rabs (0 - l ^ 2)) _) eqn:Q. { apply Rltb_true in Q. rewrite Rabs_left in Q by nra. nra. }
    unfold newton_step. rewrite C0, S0. destruct (Req_EM_T (2 * 1) 0); [lra|]. replace (0 - (2 * 1 * 0 + 0) / (2 * 1)) with 0 by field.
    assert (T : Rltb (Rabs (value s 0 - value s 0)) (1 / 10 ^ 6 * (l ^ 2 - 0)) = true).
    { apply Rltb_true. rewrite Rminus_diag_eq, Rabs_R0 by auto. nra. }
    assert (Lp : newton_loop fuel (slope s) (curvature s) (fun x xnew => Rltb (Rabs (value s xnew - value s x)) (1 / 10 ^ 6 * (l ^ 2 - 0))) (Some 0) (Some 0) = Ok 0)
      by (destruct fuel; cbn [newton_loop]; rewrite T; auto).
    rewrite Lp. cbn [bind]. rewrite V0. destruct (existsb _ _) eqn:X; [reflexivity|]. exfalso.
    assert (existsb (fun v => Rltb (poly 1 0 0 0) v) (nzs s z order) = true); [|congruence]. apply existsb_exists. exists (l ^ 2). split; auto. apply Rltb_true. unfold poly. nra. }
  unfold smask_new. assert (Fb : forallb (fun b => Rleb 0 b) (map (poly 1 0 0) z) = true).
  { apply forallb_forall. intros b Hb. apply in_map_iff in Hb. destruct Hb as (x & <- & _). apply Rleb_true. unfold poly. nra. }
  rewrite Fb. destruct z as [|z0 z']; [cbn in Ln; lia|]. cbn [hd] in H0. subst z0. fold l. rewrite !(proj2 (Rleb_true _ _) (Rle_refl _)). cbn [andb].
  unfold s_prepare, default_norm, set_interp. rewrite Es. cbn [bind]. destruct order as [|[|k]]; try lia. rewrite Ev. reflexivity.
Qed.
Print Assumptions C73_convex_refuted.

(** The constructor never returns for the table of x^2 + x + 1 from 0: the search leaves the table, where the spline is zero, and turns to NaN. *)
Lemma newton_nan : forall fuel f g crit x, newton_loop fuel f g crit x None = Err OutOfFuel.
Proof.
  induction fuel as [|fuel IH]; intros f g crit x; destruct x; cbn [newton_loop]; auto; try (apply IH).
Qed.
Theorem C73_hang_refuted : forall fuel z s order, (2 <= order)%nat -> hd 0 z = 0 -> 1 <= last z 0 <= 900 -> make order z (map (poly 1 1 1) z) = Ok s ->
  smask_new make fuel z (map (poly 1 1 1) z) None None order = Err OutOfFuel.
Proof.
  intros fuel z s order O H0 HL Es. destruct (make_inv _ _ _ _ Es) as (_ & Ln & HE & Hr & Hv & Hout).
  pose proof (poly_spline _ _ _ _ _ _ O Es) as Hq. rewrite H0 in Hq. set (l := last z 0) in *. assert (N : (2 <= length z * order)%nat) by (apply enough; auto).
  assert (Inc : forall x y, hd 0 z <= x -> x < y -> y <= last z 0 -> value s x < value s y).
  { intros x y A B C. fold l in C. rewrite H0 in A. destruct (Hq x ltac:(lra)) as (-> & _). destruct (Hq y ltac:(lra)) as (-> & _). unfold poly. nra. }
  pose proof (argmax_increasing s z order Hr ltac:(lia) ltac:(lia) Inc) as Ax. pose proof (min_first s z order Hr ltac:(lia) ltac:(lia) Inc) as Mn. rewrite H0 in Mn.
  destruct (Hq 0 ltac:(lra)) as (V0 & S0 & C0). destruct (Hq l ltac:(lra)) as (Vl & Sl & Cl).
  assert (Nl : nth (length z * order - 1) (nzs s z order) 0 = poly 1 1 1 l) by (rewrite nzs_nth by lia; rewrite grid_last by lia; fold l; rewrite Vl; unfold poly; ring).
  assert (Il : In (poly 1 1 1 l) (nzs s z order)) by (rewrite <- Nl; apply nth_In; rewrite nzs_length; lia).
  assert (P0 : poly 1 1 1 0 = 1) by (unfold poly; ring). assert (Pl : poly 1 1 1 l = l ^ 2 + l + 1) by (unfold poly; ring).
  assert (Ev : search_max fuel 0 l z order s = Err OutOfFuel).
  { unfold search_max. fold (nzs s z order). rewrite Ax, grid_last, Nl, Mn by lia. fold l.
    assert (NC : allclose (nzs s z order) (hd 0 (nzs s z order)) = false).
    { rewrite nz_hd, H0 by lia. rewrite V0, P0. destruct (allclose _ _) eqn:C; auto. unfold allclose in C. rewrite forallb_forall in C. specialize (C _ Il).
      apply Rleb_true in C. rewrite Pl in C. rewrite Rabs_right, Rabs_right in C by nra. nra. }
    rewrite NC, V0, P0, Pl.
    unfold solve_newton. rewrite Sl, Cl. destruct (Req_EM_T (2 * 1) 0); [lra|]. replace (l - (2 * 1 * l + 1) / (2 * 1)) with (- (1 / 2)) by field.
    rewrite Rmax_right, Rmin_left by lra. match goal with |- bind ?e _ = _ => assert (X : e = Err OutOfFuel) end; [|rewrite X; reflexivity].
    assert (Q : Rltb (Rabs (value s 0 - value s l)) (1 / 10 ^ 6 * (l ^ 2 + l + 1 - 1)) = false).
    { apply Rltb_false. rewrite V0, Vl, P0, Pl. rewrite Rabs_left by nra. nra. }
    assert (Q2 : Rltb (Rabs (value s (- (1 / 2)) - value s 0)) (1 / 10 ^ 6 * (l ^ 2 + l + 1 - 1)) = false).
    { apply Rltb_false. destruct (Hout (- (1 / 2)) ltac:(left; lra)) as (-> & _). rewrite V0, P0. rewrite Rabs_left by lra. nra. }
    assert (St1 : newton_step (slope s) (curvature s) (Some 0) = Some (- (1 / 2))).
    { unfold newton_step. rewrite C0, S0. destruct (Req_EM_T (2 * 1) 0); [lra|]. f_equal. field. }
    assert (St2 : newton_step (slope s) (curvature s) (Some (- (1 / 2))) = None).
    { unfold newton_step. destruct (Hout (- (1 / 2)) ltac:(left; lra)) as (_ & _ & ->). destruct (Req_EM_T 0 0); [reflexivity|lra]. }
    destruct fuel as [|fuel]; cbn [newton_loop]; rewrite Q; [reflexivity|]. rewrite St1. destruct fuel as [|fuel]; cbn [newton_loop]; rewrite Q2; [reflexivity|]. rewrite St2, newton_nan. reflexivity. }
  unfold smask_new. assert (Fb : forallb (fun b => Rleb 0 b) (map (poly 1 1 1) z) = true).
  { apply forallb_forall. intros b Hb. apply in_map_iff in Hb. destruct Hb as (x & <- & _). apply Rleb_true. unfold poly. nra. }
  rewrite Fb. destruct z as [|z0 z']; [cbn in Ln; lia|]. cbn [hd] in H0. subst z0. fold l. rewrite !(proj2 (Rleb_true _ _) (Rle_refl _)). cbn [andb].
  unfold s_prepare, default_norm, set_interp. rewrite Es. cbn [bind]. destruct order as [|[|k]]; try lia. rewrite Ev. reflexivity.
Qed.
Print Assumptions C73_hang_refuted.
End Splines.

(** ** A concrete maker of splines: the parabola through three points *)
Definition through (x0 x1 x2 y0 y1 y2 : R) : spline :=
  let c1 := (y1 - y0) / (x1 - x0) in
  let c2 := ((y2 - y1) / (x2 - x1) - c1) / (x2 - x0) in
  let inside x v := if Rleb x0 x && Rleb x x2 then v else 0 in
  Spline (fun x => inside x (y0 + c1 * (x - x0) + c2 * (x - x0) * (x - x1))) (fun x => inside x (c1 + c2 * (2 * x - x0 - x1))) (fun x => inside x (2 * c2)).
Definition three : maker := fun k z y =>
  match k, z, y with
  | 2%nat, [x0; x1; x2], [y0; y1; y2] => if Rltb x0 x1 && Rltb x1 x2 then Ok (through x0 x1 x2 y0 y1 y2) else Err ValueError
  | _, _, _ => Err ValueError
  end.
Lemma three_inv : forall k z y s, three k z y = Ok s -> exists x0 x1 x2 y0 y1 y2, k = 2%nat /\ z = [x0; x1; x2] /\ y = [y0; y1; y2] /\ x0 < x1 < x2 /\ s = through x0 x1 x2 y0 y1 y2.
Proof.
  intros k z y s H. unfold three in H. destruct k as [|[|[|k]]]; try discriminate. destruct z as [|x0 [|x1 [|x2 [|]]]]; try discriminate.
  destruct y as [|y0 [|y1 [|y2 [|]]]]; try discriminate. destruct (Rltb x0 x1 && Rltb x1 x2) eqn:B; [|discriminate].
  apply andb_true_iff in B. destruct B as [B1 B2]. apply Rltb_true in B1. apply Rltb_true in B2. inversion H. exists x0, x1, x2, y0, y1, y2. repeat split; auto.
Qed.
Lemma three_ok : forall x0 x1 x2 y0 y1 y2, x0 < x1 < x2 -> three 2%nat [x0; x1; x2] [y0; y1; y2] = Ok (through x0 x1 x2 y0 y1 y2).
Proof. intros x0 x1 x2 y0 y1 y2 [A B]. cbn. apply Rltb_true in A. apply Rltb_true in B. rewrite A, B. reflexivity. Qed.
Lemma inside_in : forall x0 x2 x : R, x0 <= x <= x2 -> Rleb x0 x && Rleb x x2 = true.
Proof. intros x0 x2 x [A B]. apply Rleb_true in A. apply Rleb_true in B. rewrite A, B. reflexivity. Qed.
Lemma inside_out : forall x0 x2 x : R, x < x0 \/ x2 < x -> Rleb x0 x && Rleb x x2 = false.
Proof. intros x0 x2 x A. apply andb_false_iff. destruct A as [A|A]; [left|right]; apply Rleb_false; auto. Qed.
Lemma three_splines : splines three.
Proof.
  split; [|split].
  - intros k z y s H. destruct (three_inv _ _ _ _ H) as (x0 & x1 & x2 & y0 & y1 & y2 & -> & -> & -> & L & ->). cbn [length hd last].
    repeat (split; [solve [lia | auto]|]). split.
    { intros i j Hij. cbn [length] in Hij. destruct i as [|[|[|i]]]; destruct j as [|[|[|j]]]; cbn; try lra; lia. }
    split.
    + intros i Hi. destruct i as [|[|[|i]]]; [| | |lia]; cbn [nth through value]; rewrite inside_in by lra; field; lra.
    + intros x Hx. cbn [through value slope curvature]. rewrite !inside_out by auto. auto.
  - intros k z y s c H. destruct (three_inv _ _ _ _ H) as (x0 & x1 & x2 & y0 & y1 & y2 & -> & -> & -> & L & ->). cbn [map].
    exists (through x0 x1 x2 (c * y0) (c * y1) (c * y2)). split; [apply three_ok; auto|]. intros x. cbn [through value].
    destruct (Rleb x0 x && Rleb x x2); [field; lra|ring].
  - intros k z y s a b c Hk H T. destruct (three_inv _ _ _ _ H) as (x0 & x1 & x2 & y0 & y1 & y2 & -> & -> & -> & L & ->). cbn [hd last].
    unfold tabulates in T. cbn [map] in T. inversion T; subst y0 y1 y2. intros x Hx. cbn [through value slope curvature]. rewrite inside_in by auto.
    split; [|split]; field; lra.
Qed.
Lemma three_poly : forall a b c x0 x1 x2, x0 < x1 < x2 -> exists s, three 2%nat [x0; x1; x2] (map (poly a b c) [x0; x1; x2]) = Ok s.
Proof. intros. eexists. cbn [map]. apply three_ok. auto. Qed.

(** The contract is met; a table that hangs, a table refused, a table accepted. *)
Example C73_case_hang : forall fuel, smask_new three fuel [0; 1; 2] [1; 3; 7] None None 2%nat = Err OutOfFuel.
Proof.
  intros fuel. destruct (three_poly 1 1 1 0 1 2 ltac:(lra)) as [s Hs]. replace [1; 3; 7] with (map (poly 1 1 1) [0; 1; 2]) by (cbn [map]; unfold poly; repeat f_equal; ring).
  apply (C73_hang_refuted three three_splines fuel [0; 1; 2] s 2%nat); cbn; auto; lra.
Qed.
Example C73_case_refused : forall fuel, (1 <= fuel)%nat -> smask_new three fuel [0; 1; 2] [0; 1; 4] None None 2%nat = Err ValueError.
Proof.
  intros fuel F. destruct (three_poly 1 0 0 0 1 2 ltac:(lra)) as [s Hs]. replace [0; 1; 4] with (map (poly 1 0 0) [0; 1; 2]) by (cbn [map]; unfold poly; repeat f_equal; ring).
  apply (C73_convex_refuted three three_splines fuel [0; 1; 2] s 2%nat); cbn; auto; lra.
Qed.
Example C73_case_flat : exists m, smask_new three 0%nat [0; 1; 2] [5; 5; 5] (Some (1 / 2, 3 / 2)) None 2%nat = Ok m /\ smask_prob m 1 = 1 /\ smask_prob m 2 = 0.
Proof.
  destruct (C73_flat three three_splines 0%nat [0; 1; 2] 5 (through 0 1 2 5 5 5) 2%nat (1 / 2) (3 / 2)) as (m & Hm & _ & Hp); cbn [hd last map]; try lra; auto; [apply three_ok; lra|].
  exists m. split; [exact Hm|]. split; [apply Hp; lra|]. apply (C73_outside three 0%nat [0; 1; 2] [5; 5; 5] (Some (1 / 2, 3 / 2)) None 2%nat m 2 Hm). right. lra.
Qed.

(** The maximum is looked for outside of the redshift range too: the largest probability in the range may then be below 1. *)
Theorem C73_range_refuted : forall fuel, (2 <= fuel)%nat -> exists m, smask_new three fuel [0; 1; 2] [0; 3; 4] (Some (0, 1)) None 2%nat = Ok m /\
  (forall x, smask_prob m x <= 3 / 4) /\ smask_prob m 1 = 3 / 4.
Proof.
  intros fuel F. set (s := through 0 1 2 0 3 4).
  assert (Es : three 2%nat [0; 1; 2] [0; 3; 4] = Ok s) by (apply three_ok; lra).
  assert (Hq : forall x, 0 <= x <= 2 -> value s x = 4 * x - x ^ 2 /\ slope s x = 4 - 2 * x /\ curvature s x = -2).
  { intros x Hx. unfold s. cbn [through value slope curvature]. rewrite inside_in by auto. split; [|split]; field. }
  assert (Inc : forall x y, hd 0 [0; 1; 2] <= x -> x < y -> y <= last [0; 1; 2] 0 -> value s x < value s y).
  { cbn [hd last]. intros x y A B C. destruct (Hq x ltac:(lra)) as (-> & _). destruct (Hq y ltac:(lra)) as (-> & _). nra. }
  destruct (make_inv three three_splines _ _ _ _ Es) as (_ & _ & _ & Hr & _ & _).
  pose proof (argmax_increasing s [0; 1; 2] 2%nat Hr ltac:(cbn; lia) ltac:(lia) Inc) as Ax. pose proof (min_first s [0; 1; 2] 2%nat Hr ltac:(cbn; lia) ltac:(lia) Inc) as Mn.
  pose proof (grid_last [0; 1; 2] 2%nat ltac:(cbn; lia)) as Gl.
  assert (Nl : nth (length [0%R; 1%R; 2%R] * 2 - 1)%nat (nzs s [0; 1; 2] 2%nat) 0 = 4) by (rewrite nzs_nth by (cbn; lia); rewrite Gl; cbn [last]; destruct (Hq 2 ltac:(lra)) as (-> & _); ring).
  assert (Ev : search_max fuel 0 1 [0; 1; 2] 2%nat s = Ok 4).
  { unfold search_max. fold (nzs s [0; 1; 2] 2%nat). rewrite Ax, Mn, Nl, Gl. cbn [hd last]. destruct (Hq 0 ltac:(lra)) as (V0 & _ & _). destruct (Hq 1 ltac:(lra)) as (V1 & S1 & C1).
    destruct (Hq 2 ltac:(lra)) as (V2 & S2 & C2). rewrite V0.
    assert (NC : allclose (nzs s [0; 1; 2] 2%nat) (hd 0 (nzs s [0; 1; 2] 2%nat)) = false).
    { rewrite nz_hd by (cbn; lia). cbn [hd]. rewrite V0. destruct (allclose _ _) eqn:C; auto. unfold allclose in C. rewrite forallb_forall in C.
      assert (I4 : In 4 (nzs s [0; 1; 2] 2%nat)) by (rewrite <- Nl; apply nth_In; rewrite nzs_length; cbn; lia).
      specialize (C _ I4). apply Rleb_true in C. replace (4 * 0 - 0 ^ 2) with 0 in C by ring. rewrite Rabs_R0, Rabs_right in C by lra. lra. }
    rewrite NC. set (crit := fun x xnew : R => Rltb (Rabs (value s xnew - value s x)) (1 / 10 ^ 6 * (4 - (4 * 0 - 0 ^ 2)))).
    assert (K1 : crit 2 1 = false) by (unfold crit; apply Rltb_false; rewrite V1, V2, Rabs_left by lra; lra).
    assert (K2 : crit 1 2 = false) by (unfold crit; apply Rltb_false; rewrite V1, V2, Rabs_right by lra; lra).
    assert (K3 : crit 2 2 = true) by (unfold crit; apply Rltb_true; rewrite Rminus_diag_eq, Rabs_R0 by auto; lra).
    assert (St1 : newton_step (slope s) (curvature s) (Some 1) = Some 2) by (unfold newton_step; rewrite C1, S1; destruct (Req_EM_T (-2) 0); [lra|f_equal; lra]).
    assert (St2 : newton_step (slope s) (curvature s) (Some 2) = Some 2) by (unfold newton_step; rewrite C2, S2; destruct (Req_EM_T (-2) 0); [lra|f_equal; lra]).
    assert (Sn : solve_newton fuel 0 1 (slope s) (curvature s) crit 2 = Ok 2).
    { unfold solve_newton. rewrite C2, S2. destruct (Req_EM_T (-2) 0); [lra|]. rewrite Rmax_left, Rmin_right by lra.
      destruct fuel as [|[|fuel]]; try lia. cbn [newton_loop]. rewrite K1, St1, K2, St2. destruct fuel; cbn [newton_loop]; rewrite K3; reflexivity. }
    rewrite Sn. cbn [bind]. rewrite V2. replace (4 * 2 - 2 ^ 2) with 4 by ring. destruct (existsb _ _) eqn:X; [|reflexivity]. exfalso.
    apply existsb_exists in X. destruct X as (v & Hv & Lv). apply Rltb_true in Lv. destruct (In_nth _ _ 0 Hv) as (i & Hi & Ei). rewrite nzs_length in Hi. rewrite nzs_nth in Ei by auto.
    pose proof (grid_in [0; 1; 2] 2%nat i Hr ltac:(cbn; lia) ltac:(lia) Hi) as B. cbn [hd last] in B. destruct (Hq _ B) as (Vi & _). cbn [hd last] in Ei. rewrite Vi in Ei. nra. }
  assert (En : default_norm three fuel [0; 1; 2] [0; 3; 4] 0 1 2%nat = Ok (1 / 4)).
  { unfold default_norm, set_interp. rewrite Es. cbn [bind]. rewrite Ev. cbn [bind]. unfold fdiv. destruct (Req_EM_T 4 0); [lra|reflexivity]. }
  assert (Ek : map (fun b => Rmin (1 / 4 * b) 1) [0; 3; 4] = [0; 3 / 4; 1]).
  { cbn [map]. rewrite !Rmin_left by lra. replace (1 / 4 * 0) with 0 by lra; replace (1 / 4 * 3) with (3 / 4) by lra; replace (1 / 4 * 4) with 1 by lra; reflexivity. }
  exists (SMask [0; 1; 2] [0; 3; 4] 0 1 2%nat (1 / 4) (through 0 1 2 0 (3 / 4) 1)). split; [|split].
  - unfold smask_new. assert (Fb : forallb (fun b => Rleb 0 b) [0; 3; 4] = true) by (apply forallb_forall; intros b Hb; apply Rleb_true; destruct Hb as [<-|[<-|[<-|[] ] ] ]; lra).
    rewrite Fb. cbn [last]. rewrite (proj2 (Rleb_true 0 0)), (proj2 (Rleb_true 1 2)) by lra. cbn [andb]. unfold s_prepare. rewrite En. cbn [bind]. unfold set_interp. rewrite Ek.
    rewrite three_ok by lra. reflexivity.
  - intros x. unfold smask_prob. cbn [s_lo s_hi s_interp]. destruct (Mask_Model.between 0 1 x) eqn:B; [|lra]. apply between_spec in B. cbn [through value].
    rewrite inside_in by lra. replace (((1 - 3 / 4) / (2 - 1) - (3 / 4 - 0) / (1 - 0)) / (2 - 0)) with (- (1 / 4)) by field. replace ((3 / 4 - 0) / (1 - 0)) with (3 / 4) by field. nra.
  - unfold smask_prob. cbn [s_lo s_hi s_interp]. rewrite (proj2 (between_spec 0 1 1)) by lra. cbn [through value]. rewrite inside_in by lra. field.
Qed.
Print Assumptions C73_range_refuted.

(** Between tabulated redshifts the probability may exceed 1, and be negative. *)
Theorem C73_probability_refuted : forall fuel,
  (exists m, smask_new three fuel [0; 1; 2] [1; 1; 0] None (Some 1) 2%nat = Ok m /\ smask_prob m (1 / 2) = 9 / 8) /\
  (exists m, smask_new three fuel [0; 1; 2] [0; 0; 1] None (Some 1) 2%nat = Ok m /\ smask_prob m (1 / 2) = - (1 / 8)).
Proof.
  intros fuel. assert (G : forall y0 y1 y2 : R, 0 <= y0 <= 1 -> 0 <= y1 <= 1 -> 0 <= y2 <= 1 ->
    smask_new three fuel [0; 1; 2] [y0; y1; y2] None (Some 1) 2%nat = Ok (SMask [0; 1; 2] [y0; y1; y2] 0 2 2%nat 1 (through 0 1 2 y0 y1 y2))).
  { intros y0 y1 y2 H0 H1 H2. unfold smask_new. assert (Fb : forallb (fun b => Rleb 0 b) [y0; y1; y2] = true) by (apply forallb_forall; intros b Hb; apply Rleb_true; destruct Hb as [<-|[<-|[<-|[] ] ] ]; lra).
    rewrite Fb. cbn [last]. rewrite (proj2 (Rleb_true 0 0)), (proj2 (Rleb_true 2 2)) by lra. cbn [andb]. unfold s_prepare. cbn [bind]. unfold set_interp. cbn [map].
    rewrite !Rmult_1_l, !Rmin_left by lra. rewrite three_ok by lra. reflexivity. }
  split; eexists; (split; [apply G; lra|]); unfold smask_prob; cbn [s_lo s_hi s_interp]; rewrite (proj2 (between_spec 0 2 (1 / 2))) by lra; cbn [through value]; rewrite inside_in by lra; field.
Qed.
Print Assumptions C73_probability_refuted.

(** A density with a maximum in the range: 1 + 2 x - x^2 on [0, 2]. *)
Example C73_case_parabola : exists n, default_norm three 1%nat [0; 1; 2] [1; 2; 1] 0 2 2%nat = Ok (/ n) /\ n <= 2 /\ 2 - n <= 2 / 10 ^ 6.
Proof.
  assert (Es : three 2%nat [0; 1; 2] (map (poly (-1) 2 1) [0; 1; 2]) = Ok (through 0 1 2 1 2 1)).
  { cbn [map]. replace (poly (-1) 2 1 0) with 1 by (unfold poly; ring). replace (poly (-1) 2 1 1) with 2 by (unfold poly; ring). replace (poly (-1) 2 1 2) with 1 by (unfold poly; ring). apply three_ok; lra. }
  destruct (C73_parabola three three_splines 1%nat [0; 1; 2] (-1) 2 1 _ 2%nat 0 2 ltac:(lia) ltac:(lia) Es) as (n & Hn & A & B); try lra.
  - cbn [hd last]. intros x Hx. unfold poly. nra.
  - cbn [hd]; lra.
  - cbn [last]; lra.
  - intros C. rewrite nz_hd in C by (cbn; lia). unfold allclose in C. rewrite forallb_forall in C.
    specialize (C (nth 2 (nzs (through 0 1 2 1 2 1) [0; 1; 2] 2%nat) 0) ltac:(apply nth_In; rewrite nzs_length; cbn; lia)).
    rewrite nzs_nth in C by (cbn; lia). rewrite linspace_nth in C by (cbn; lia). cbn [hd last length] in C. replace (0 + (2 - 0) * (INR 2 / INR (3 * 2 - 1))) with (4 / 5) in C by (cbn; field).
    cbn [through value] in C. rewrite !inside_in in C by lra.
    replace (1 + (2 - 1) / (1 - 0) * (4 / 5 - 0) + ((1 - 2) / (2 - 1) - (2 - 1) / (1 - 0)) / (2 - 0) * (4 / 5 - 0) * (4 / 5 - 1)) with (49 / 25) in C by field.
    replace (1 + (2 - 1) / (1 - 0) * (0 - 0) + ((1 - 2) / (2 - 1) - (2 - 1) / (1 - 0)) / (2 - 0) * (0 - 0) * (0 - 1)) with 1 in C by field.
    apply Rleb_true in C. rewrite !Rabs_right in C by lra. lra.
  - exists n. replace [1; 2; 1] with (map (poly (-1) 2 1) [0; 1; 2]) by (cbn [map]; unfold poly; repeat f_equal; ring). split; [exact Hn|].
    replace (poly (-1) 2 1 (- (2) / (2 * -1))) with 2 in * by (unfold poly; field). lra.
Qed.
