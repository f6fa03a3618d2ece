Require Import String Reals Lra Lia Psatz ZArith List Bool.
From Verif Require Import Base Vec3 Isometry_Model Isometry_Spec Isometry_Proof Box_Model Box_Spec Box_Proof Round_Model Round_Spec Drift_Model Drift_Spec Drift_Proof Drift_Proof2
  Slip_Model Slip_Spec.
Import ListNotations.
Open Scope R_scope.

(** ** Translations *)
Section Exact.
Variables (rnd : R -> R) (dot3 : vec -> vec -> R).
Hypothesis AX : exact_on_axes rnd dot3.

Lemma shift_means_vector : forall sh ax v, shift_means sh ax v -> shift_vector sh ax = Ok v.
Proof. intros sh ax v H. destruct H; reflexivity. Qed.
Lemma fl_shift : forall sh ax v, shift_means sh ax v -> float_vec rnd v -> fl_iso_translation rnd dot3 iso_new sh ax "origin" = (Iso mid v, Ok tt).
Proof.
  intros sh ax [a b c] M (X & Y & Z). unfold float_of in *. cbn [vx vy vz] in *. unfold fl_iso_translation. rewrite (shift_means_vector _ _ _ M). cbn. unfold fl_vadd. cbn. rewrite !Rplus_0_l, X, Y, Z. reflexivity.
Qed.
Lemma fl_shifted : forall v p, float_vec rnd p -> fl_transform rnd dot3 (Iso mid v) false p = shifted rnd v p /\ fl_transform rnd dot3 (Iso mid v) true p = p.
Proof. intros v p F. destruct (AX p F) as (X & Y & Z). unfold fl_transform, fl_vadd, fl_apply, shifted. cbn. rewrite X, Y, Z. split; [reflexivity|destruct p; reflexivity]. Qed.

Lemma fl_tv_ok : forall s c, vectors_ok c -> exists c', fl_transform_vectors rnd dot3 s c = Ok c'.
Proof.
  intros s c H. unfold fl_transform_vectors.
  destruct (map_cols_ok (fun n x => if mem n (pc_vectors c) then fl_transform_col rnd dot3 s (mem n (pc_invariants c)) x else Ok x) (pc_data c)) as [d' ->].
  - intros n x I. destruct (mem n (pc_vectors c)) eqn:M; [|eauto]. apply mem_In in M. destruct (H _ _ I M) as [l ->]. cbn. eauto.
  - cbn [bind]. eauto.
Qed.
Lemma fl_tv_spec : forall s c c', fl_transform_vectors rnd dot3 s c = Ok c' ->
  names c' = names c /\ same_roles c c' /\
  (forall n x, column c n = Some x -> ~ In n (pc_vectors c) -> column c' n = Some x) /\
  (forall n l, column c n = Some (ColV l) -> moves c n -> column c' n = Some (ColV (map (fl_transform rnd dot3 s false) l))) /\
  (forall n l, column c n = Some (ColV l) -> In n (pc_vectors c) -> In n (pc_invariants c) -> column c' n = Some (ColV (map (fl_transform rnd dot3 s true) l))).
Proof.
  intros s c c' H. unfold fl_transform_vectors in H.
  match type of H with (do d <- ?X; _) = _ => destruct X as [d|] eqn:E end; [|discriminate]. cbn [bind] in H. injection H as <-.
  apply map_cols_spec in E. destruct E as [N L]. unfold names, column, moves, same_roles. cbn [pc_data pc_vectors pc_invariants pc_position pc_velocity].
  repeat split; auto.
  - intros n x K NI. specialize (L n). rewrite K in L. destruct L as (x' & F & ->). apply mem_nIn in NI. rewrite NI in F. congruence.
  - intros n l K [I NI]. specialize (L n). rewrite K in L. destruct L as (x' & F & ->). apply mem_In in I. apply mem_nIn in NI.
    rewrite I, NI in F. cbn in F. congruence.
  - intros n l K I I2. specialize (L n). rewrite K in L. destruct L as (x' & F & ->). apply mem_In in I. apply mem_In in I2.
    rewrite I, I2 in F. cbn in F. congruence.
Qed.

Lemma fl_translate_thm : forall c sh ax v, shift_means sh ax v -> float_vec rnd v -> float_box rnd c -> vectors_ok (bc_cat c) ->
  exists c', fl_translate rnd dot3 c sh ax = Ok c' /\ boxsize c' = boxsize c /\ boxcenter c' = shifted rnd v (boxcenter c) /\
    names (bc_cat c') = names (bc_cat c) /\ same_roles (bc_cat c) (bc_cat c') /\
    (forall n l, column (bc_cat c) n = Some (ColV l) -> moves (bc_cat c) n -> column (bc_cat c') n = Some (ColV (map (shifted rnd v) l))) /\
    (forall n x, column (bc_cat c) n = Some x -> ~ moves (bc_cat c) n -> column (bc_cat c') n = Some x).
Proof.
  intros c sh ax v M FV (_ & FC & FD) W. unfold fl_translate. rewrite (fl_shift _ _ _ M FV). cbn [iso_ok bind].
  destruct (fl_tv_ok (Iso mid v) (bc_cat c) W) as [c' E]. rewrite E. cbn [bind]. eexists; split; [reflexivity|].
  cbn [boxsize boxcenter bc_cat]. destruct (fl_tv_spec _ _ _ E) as (N & S & A & B & C).
  split; auto. split; [apply fl_shifted; auto|]. split; auto. split; auto.
  assert (FL : forall n l, column (bc_cat c) n = Some (ColV l) -> In n (pc_vectors (bc_cat c)) -> Forall (float_vec rnd) l) by (intros n l K I; apply (FD n l); auto; apply lookup_In; auto).
  split.
  - intros n l K I. rewrite (B n l K I). do 2 f_equal. pose proof (FL n l K (proj1 I)) as F. apply map_ext_in. intros p P. rewrite Forall_forall in F. apply fl_shifted; auto.
  - intros n x K NM. destruct (in_dec string_dec n (pc_vectors (bc_cat c))) as [I|I]; [|auto].
    destruct (column_in_vec _ _ _ W K I) as [l ->].
    destruct (in_dec string_dec n (pc_invariants (bc_cat c))) as [J|J].
    + rewrite (C n l K I J). do 2 f_equal. rewrite <- (map_id l) at 2. pose proof (FL n l K I) as F. apply map_ext_in. intros p P. rewrite Forall_forall in F. apply fl_shifted; auto.
    + exfalso; apply NM; split; auto.
Qed.
(** The new catalog is made of numbers of the format as well. *)
Lemma fl_translate_float : forall c sh ax v c', (forall x, rnd (rnd x) = rnd x) -> shift_means sh ax v -> float_vec rnd v -> float_box rnd c -> vectors_ok (bc_cat c) ->
  fl_translate rnd dot3 c sh ax = Ok c' -> float_box rnd c' /\ vectors_ok (bc_cat c').
Proof.
  intros c sh ax v c' ID M FV (FS & FC & FD) W. unfold fl_translate. rewrite (fl_shift _ _ _ M FV). cbn [iso_ok bind].
  unfold fl_transform_vectors. match goal with |- (do cat <- (do d <- ?X; _); _) = _ -> _ => destruct X as [d|] eqn:E end; [|discriminate]. cbn [bind]. intros H. injection H as <-.
  assert (SF : forall p, float_vec rnd (shifted rnd v p)) by (intros p; repeat split; apply ID).
  assert (ALL : forall n x, In (n, x) d -> In n (pc_vectors (bc_cat c)) -> exists l, x = ColV l /\ Forall (float_vec rnd) l).
  { revert d E. revert FD W. unfold vectors_ok. induction (pc_data (bc_cat c)) as [|[m y] t IH]; cbn [map_cols]; intros FD' W' d E n x I K.
    - injection E as <-. destruct I.
    - destruct (mem m (pc_vectors (bc_cat c))) eqn:MM.
      + apply mem_In in MM. destruct (W' m y (or_introl eq_refl) MM) as [l ->]. cbn [fl_transform_col bind] in E.
        match type of E with (do d' <- ?X; _) = _ => destruct X as [d'|] eqn:E2 end; [|discriminate]. cbn [bind] in E. injection E as <-.
        destruct I as [I|I].
        * injection I as <- <-. eexists. split; [reflexivity|]. pose proof (FD' m l (or_introl eq_refl) MM) as F. rewrite Forall_forall in *. intros q Q. apply in_map_iff in Q. destruct Q as (p & <- & P).
          destruct (fl_shifted v p (F p P)) as [A B]. destruct (mem m (pc_invariants (bc_cat c))); [rewrite B; auto|rewrite A; auto].
        * eapply (IH (fun n l I => FD' n l (or_intror I)) (fun n x I => W' n x (or_intror I)) d' eq_refl); eauto.
      + cbn [bind] in E. match type of E with (do d' <- ?X; _) = _ => destruct X as [d'|] eqn:E2 end; [|discriminate]. cbn [bind] in E. injection E as <-.
        destruct I as [I|I]; [injection I as <- <-; apply mem_nIn in MM; tauto|]. eapply (IH (fun n l I => FD' n l (or_intror I)) (fun n x I => W' n x (or_intror I)) d' eq_refl); eauto. }
  split.
  - split; [exact FS|]. split; [change (float_vec rnd (fl_transform rnd dot3 (Iso mid v) false (boxcenter c))); rewrite (proj1 (fl_shifted v _ FC)); apply SF|]. cbn. intros n l I K. destruct (ALL n _ I K) as (l' & E' & F). congruence.
  - intros n x I K. cbn in I, K. destruct (ALL n _ I K) as (l' & E' & F). eauto.
Qed.
End Exact.

(** ** Histories *)
Lemma near_add : forall e1 e2 a b c, near e1 a b -> near e2 b c -> near (e1 + e2) a c.
Proof. intros e1 e2 a b c A B v. pose proof (A v). pose proof (B v). pose proof (vnorm_sub_le (mapply a v) (mapply b v) (mapply c v)). lra. Qed.
Lemma vabs_close : forall a b, vnorm (vsub (vabs a) (vabs b)) <= vnorm (vsub a b).
Proof. intros a b. replace (vnorm (vsub a b)) with (1 * vnorm (vsub a b)) by ring. apply vnorm_mono; [lra|..]; cbn; rewrite Rmult_1_l; apply Rabs_triang_inv2. Qed.
Lemma vabs_norm : forall a, vnorm (vabs a) = vnorm a.
Proof. intros [x y z]. unfold vnorm, vabs, vdot. cbn. f_equal. rewrite <- !Rabs_mult, !Rabs_right by nra. reflexivity. Qed.

Section Moves.
Variables (rnd : R -> R) (dot3 : vec -> vec -> R) (fcos fsin : R -> R) (u g eps : R).
Hypothesis ARND : accurate u rnd.
Hypothesis ADOT : accurate_dot g dot3.
Hypothesis ACOS : accurate_fun (2 * u) fcos cos.
Hypothesis ASIN : accurate_fun (2 * u) fsin sin.
Hypothesis U0 : 0 <= u.
Hypothesis UE : u <= eps.
Hypothesis G0 : 0 <= g.
Hypothesis GE : 6 * g <= eps.
Hypothesis E1 : eps <= 1 / 5.
Notation e := (1 + eps).

(** The angle. *)
Lemma quarter_angle_close : forall k, 25000 * u <= 1 -> Rabs (fl_quarter_angle rnd k - IZR k * PI / 2) <= 11 * u * Rabs (IZR k * PI / 2).
Proof.
  intros k U1. pose proof (rel_rnd rnd u ARND U0 ltac:(lra)) as RR. pose proof (rel_mult u U0 ltac:(lra)) as RM.
  change (rel u 11 (fl_quarter_angle rnd k) (IZR k * PI / 2)). unfold fl_quarter_angle. replace 11 with (9 + 2) by ring. apply RR; [lra|].
  assert (A : rel u 9 (rnd (rnd (IZR k) * fl_pi rnd)) (IZR k * PI)).
  { replace 9 with (2 + 2 + 3 + 2) by ring. apply RR; [lra|]. apply RM; try lra; unfold fl_pi; replace 2 with (0 + 2) by ring; apply RR; try lra; apply rel_0. }
  unfold rel in *. set (x := rnd (rnd (IZR k) * fl_pi rnd)) in *. set (y := IZR k * PI) in *. replace (x / 2 - y / 2) with ((x - y) * / 2) by field. replace (y / 2) with (y * / 2) by field.
  rewrite !Rabs_mult, (Rabs_right (/ 2)) by lra. lra.
Qed.
Lemma axis_rot_near : forall w a b D, vdot w w = 1 -> Rabs (a - b) <= D -> near (12 * D) (axis_rot w (cos a) (sin a)) (axis_rot w (cos b) (sin b)).
Proof.
  intros w a b D W AB. assert (D0 : 0 <= D) by (pose proof (Rabs_pos (a - b)); lra).
  replace (12 * D) with (6 * 2 * D) by ring. apply (mdiff_near D D0 2); [lra|].
  pose proof (coord_le w) as (X1 & Y1 & Z1). rewrite (vnorm_unit w W) in X1, Y1, Z1. destruct w as [x y z]. cbn [vx vy vz] in *.
  pose proof (cos_lip a b) as C. pose proof (sin_lip a b) as S.
  assert (Q : forall p q r, Rabs q <= 1 -> Rabs r <= 1 -> Rabs ((p + cos a * q + sin a * r) - (p + cos b * q + sin b * r)) <= 2 * D).
  { intros p q r HQ HR. replace (p + cos a * q + sin a * r - (p + cos b * q + sin b * r)) with ((cos a - cos b) * q + (sin a - sin b) * r) by ring.
    eapply Rle_trans; [apply Rabs_triang|]. pose proof (abs_mult_le (cos a - cos b) q D 1 ltac:(lra) HQ). pose proof (abs_mult_le (sin a - sin b) r D 1 ltac:(lra) HR). lra. }
  assert (SQ : forall q, Rabs q <= 1 -> Rabs (1 - q * q) <= 1).
  { intros q HQ. pose proof (abs_mult_le q q 1 1 HQ HQ) as A. assert (0 <= q * q) by nra. rewrite Rabs_right in A by lra. apply Rabs_le. lra. }
  assert (PR : forall p q, Rabs p <= 1 -> Rabs q <= 1 -> Rabs (0 - p * q) <= 1).
  { intros p q P Q'. pose proof (abs_mult_le p q 1 1 P Q'). rewrite Rminus_0_l, Rabs_Ropp. lra. }
  assert (R0 : Rabs 0 <= 1) by (rewrite Rabs_R0; lra).
  assert (RN : forall q, Rabs q <= 1 -> Rabs (- q) <= 1) by (intros; rewrite Rabs_Ropp; auto).
  unfold axis_rot, outer, cross_matrix, madd, mscale, msub, mid, vadd, vscale, vsub, ap. cbn [row0 row1 row2 vx vy vz].
  intros r c I. cbn [In] in I. destruct I as [I|[I|[I|[] ] ] ]; injection I as <- <-; cbn [vx vy vz]; repeat split; apply Q; auto.
Qed.
(** Both operations raise, or they are close. *)
Lemma operation_rotate : forall k ax, few_turns u eps (BRotate k ax) ->
  both (close eps 2 2 0) (iso_ok (iso_rotation iso_new (IZR k * PI / 2) ax false "origin")) (iso_ok (fl_iso_rotation rnd dot3 fcos fsin iso_new (fl_quarter_angle rnd k) ax false "origin")).
Proof.
  intros k ax F. cbn in F. set (a := IZR k * PI / 2) in *. set (a' := fl_quarter_angle rnd k) in *. pose proof (Rabs_pos a) as A0. assert (UA : 0 <= u * Rabs a) by (apply Rmult_le_pos; auto).
  assert (DA : Rabs (a' - a) <= 11 * u * Rabs a) by (apply quarter_angle_close; lra).
  assert (B : Rabs a' <= Rabs a + 11 * u * Rabs a) by (replace a' with ((a' - a) + a) by ring; pose proof (Rabs_triang (a' - a) a); lra).
  assert (U2 : 11 * u * Rabs a <= 1 / 100 * Rabs a) by (apply Rmult_le_compat_r; lra).
  assert (UB : 11 * u * (u * Rabs a) <= 1 / 100 * (u * Rabs a)) by (apply Rmult_le_compat_r; lra).
  assert (UA' : u * Rabs a' <= u * Rabs a + 1 / 100 * (u * Rabs a)) by (apply Rle_trans with (u * (Rabs a + 11 * u * Rabs a)); [apply Rmult_le_compat_l; auto|lra]).
  pose proof (matrix_close rnd fcos fsin u ARND ACOS ASIN U0 ltac:(lra) ax a' false ltac:(cbn [radians]; lra)) as MC. revert MC. cbv zeta. cbn [radians].
  unfold fl_iso_rotation. unfold iso_rotation. cbv zeta. destruct (get_los ax) as [w|er] eqn:W, (fl_get_los rnd ax) as [v|er'] eqn:FW; cbn [bind].
  - pose proof (get_los_unit ax w W) as W1. rewrite !(rotation_matrix_eq (AxVec w) _ w) by (cbn [get_los]; apply normalize_of_unit; auto).
    pose proof PI_RGT_0. replace (a' * 180 / PI * PI / 180) with a' by (field; lra). replace (a * 180 / PI * PI / 180) with a by (field; lra).
    destruct (fl_rotation_matrix rnd fcos fsin _ _) as [mh|er]; [|tauto]. intros [RM NM].
    pose proof (axis_rot_near w a' a _ W1 DA) as N2. pose proof (near_add _ _ _ _ _ NM N2) as N3.
    assert (N4 : near eps mh (axis_rot w (cos a) (sin a))) by (apply near_weak with (2 := N3); lra).
    assert (ROT : is_rotation (axis_rot w (cos a) (sin a))) by (apply axis_rot_rotation; auto; pose proof (sin2_cos2 a); unfold Rsqr in *; lra).
    exact (close_dot dot3 u g eps ADOT U0 UE G0 GE 0 0 0 iso_new iso_new _ _ "origin" (close_new eps) ROT N4).
  - intros _. pose proof (get_los_close rnd u ARND U0 ltac:(lra) ax) as GC. rewrite W, FW in GC. tauto.
  - intros _. pose proof (get_los_close rnd u ARND U0 ltac:(lra) ax) as GC. rewrite W, FW in GC. tauto.
  - intros ->. reflexivity.
Qed.
Lemma operation_translate : forall sh ax,
  both (close eps 0 2 (match shift_vector sh ax with Ok v => vnorm v | Err _ => 0 end)) (iso_ok (iso_translation iso_new sh ax "origin")) (iso_ok (fl_iso_translation rnd dot3 iso_new sh ax "origin")).
Proof.
  intros sh ax. pose proof (close_translation rnd dot3 u g eps ARND ADOT U0 UE G0 GE 0 0 0 iso_new iso_new sh ax "origin" (close_new eps)) as C. rewrite Rplus_0_l in C. revert C.
  unfold iso_translation, fl_iso_translation. destruct (shift_vector sh ax); cbn; auto.
Qed.

(** One vector. *)
Definition vec_inv (n : nat) (L : R) (v0 v' v : vec) : Prop := vnorm v <= L + vnorm v0 /\ vnorm (vsub v' v) <= (e ^ n - 1) * (L + vnorm v0).
Lemma vec_step : forall n L v0 v' v m W s sh (ti : bool), (m <= 2)%nat -> close eps m 2 W s sh -> vec_inv n L v0 v' v ->
  vec_inv (n + 4) (L + if ti then 0 else W) v0 (fl_transform rnd dot3 sh ti v') (transform s ti v).
Proof.
  intros n L v0 v' v m W s sh ti M2 (RO & N & T & D & J) [A B]. pose proof (pow_ge u eps U0 UE) as PG. pose proof (pow_mono u eps U0 UE) as PM.
  pose proof (PG n) as Pn. pose proof (PG m) as Pm. set (t := L + vnorm v0) in *. assert (T0 : 0 <= t) by (pose proof (vnorm_nonneg v); lra). assert (W0 : 0 <= W) by (pose proof (vnorm_nonneg (tra s)); lra).
  assert (AP : vnorm (vsub (fl_apply dot3 (rot sh) v') (mapply (rot s) v)) <= (e ^ (n + 3) - 1) * t).
  { eapply Rle_trans; [apply (apply_close dot3 g eps ADOT G0 GE (rot sh) (rot s) (e ^ m) v' v (e ^ n) t); auto|]. apply Rmult_le_compat_r; auto.
    replace (e * e ^ m * e ^ n) with (e ^ (n + (m + 1))) by (rewrite !pow_add; ring). pose proof (PM (n + (m + 1))%nat (n + 3)%nat ltac:(lia)). lra. }
  unfold vec_inv, transform, fl_transform, tensordot1. destruct ti.
  - split; [rewrite rot_preserves_norm by auto; unfold t in *; lra|]. rewrite Rplus_0_r. fold t. eapply Rle_trans; [apply AP|]. apply Rmult_le_compat_r; auto. pose proof (PM (n + 3)%nat (n + 4)%nat ltac:(lia)). lra.
  - split.
    + eapply Rle_trans; [apply vnorm_triangle|]. rewrite rot_preserves_norm by auto. unfold t in *. lra.
    + replace (L + W + vnorm v0) with (t + W) by (unfold t; ring). replace (e ^ (n + 4)) with (e * e ^ (n + 3)) by (rewrite !pow_add; ring).
      apply (vadd_close rnd u eps ARND U0 UE); auto; [rewrite rot_preserves_norm; auto|].
      pose proof (PM 2%nat (n + 3)%nat ltac:(lia)). eapply Rle_trans; [apply D|]. apply Rmult_le_compat_r; lra.
Qed.
Inductive rows_inv (n : nat) (L : R) : list vec -> list vec -> list vec -> Prop :=
| ri_nil : rows_inv n L [] [] []
| ri_cons : forall v0 v' v l0 l' l, vec_inv n L v0 v' v -> rows_inv n L l0 l' l -> rows_inv n L (v0 :: l0) (v' :: l') (v :: l).
Inductive col_inv (n : nat) (L : R) (vector invariant : bool) : col -> col -> col -> Prop :=
| ci_kept : forall x, vector = false -> col_inv n L vector invariant x x x
| ci_scal : forall x, vector = true -> col_inv n L vector invariant (ColS x) (ColS x) (ColS x)
| ci_moved : forall l0 l' l, vector = true -> rows_inv n (if invariant then 0 else L) l0 l' l -> col_inv n L vector invariant (ColV l0) (ColV l') (ColV l).
Inductive data_inv (n : nat) (L : R) (vs is : list string) : data -> data -> data -> Prop :=
| di_nil : data_inv n L vs is [] [] []
| di_cons : forall m x0 x' x d0 d' d, col_inv n L (mem m vs) (mem m is) x0 x' x -> data_inv n L vs is d0 d' d -> data_inv n L vs is ((m, x0) :: d0) ((m, x') :: d') ((m, x) :: d).
Definition box_inv (n : nat) (L : R) (c0 c' c : boxcat) : Prop :=
  vec_inv n L (boxcenter c0) (boxcenter c') (boxcenter c) /\ vec_inv n 0 (boxsize c0) (boxsize c') (boxsize c) /\
  same_roles (bc_cat c0) (bc_cat c') /\ same_roles (bc_cat c0) (bc_cat c) /\
  data_inv n L (pc_vectors (bc_cat c0)) (pc_invariants (bc_cat c0)) (pc_data (bc_cat c0)) (pc_data (bc_cat c')) (pc_data (bc_cat c)).
Lemma rows_step : forall n L m W s sh ti l0 l' l, (m <= 2)%nat -> close eps m 2 W s sh -> rows_inv n L l0 l' l ->
  rows_inv (n + 4) (L + if ti : bool then 0 else W) l0 (map (fl_transform rnd dot3 sh ti) l') (map (transform s ti) l).
Proof. intros n L m W s sh ti l0 l' l M2 C I. induction I; cbn; constructor; auto. eapply vec_step; eauto. Qed.
Lemma data_step : forall n L m W s sh vs is d0 d' d, (m <= 2)%nat -> close eps m 2 W s sh -> data_inv n L vs is d0 d' d ->
  both (fun t t' => data_inv (n + 4) (L + W) vs is d0 t t') (map_cols (fun n x => if mem n vs then fl_transform_col rnd dot3 sh (mem n is) x else Ok x) d')
    (map_cols (fun n x => if mem n vs then transform_col s (mem n is) x else Ok x) d).
Proof.
  intros n L m W s sh vs is d0 d' d M2 C I. induction I as [|k x0 x' x d0 d' d CI I IH]; [constructor|]. cbn [map_cols]. inversion CI as [y V|y V|l0 l' l V RI]; subst; rewrite V; cbn [fl_transform_col transform_col bind].
  - destruct (map_cols _ d') as [t|], (map_cols _ d) as [t'|]; cbn in *; auto. constructor; auto. constructor; auto.
  - reflexivity.
  - destruct (map_cols _ d') as [t|], (map_cols _ d) as [t'|]; cbn in *; auto. constructor; auto. apply ci_moved; auto. unfold transform_all.
    pose proof (rows_step n _ m W s sh (mem k is) _ _ _ M2 C RI) as RS. destruct (mem k is); auto. rewrite Rplus_0_r in RS. auto.
Qed.
Lemma tv_step : forall n L m W s sh c0 c' c, (m <= 2)%nat -> close eps m 2 W s sh -> same_roles c0 c' -> same_roles c0 c -> data_inv n L (pc_vectors c0) (pc_invariants c0) (pc_data c0) (pc_data c') (pc_data c) ->
  both (fun t t' => same_roles c0 t /\ same_roles c0 t' /\ data_inv (n + 4) (L + W) (pc_vectors c0) (pc_invariants c0) (pc_data c0) (pc_data t) (pc_data t')) (fl_transform_vectors rnd dot3 sh c') (transform_vectors s c).
Proof.
  intros n L m W s sh c0 c' c M2 C R' R I. pose proof (data_step n L m W s sh _ _ _ _ _ M2 C I) as DS. unfold fl_transform_vectors, transform_vectors.
  destruct R' as (P1 & P2 & P3 & P4), R as (Q1 & Q2 & Q3 & Q4). rewrite P3, P4, Q3, Q4. destruct (map_cols _ (pc_data c')) as [t|], (map_cols _ (pc_data c)) as [t'|]; cbn in *; auto. unfold same_roles. cbn. auto 10.
Qed.
Lemma move_step : forall n L c0 c' c m, few_turns u eps m -> box_inv n L c0 c' c ->
  both (box_inv (n + 4) (L + way [m]) c0)
    (match m with BTranslate sh ax => fl_translate rnd dot3 c' sh ax | BRotate k ax => fl_rotate rnd dot3 fcos fsin c' k ax end)
    (match m with BTranslate sh ax => translate c sh ax | BRotate k ax => rotate c k ax end).
Proof.
  intros n L c0 c' c m F (CI & SI & R' & R & DI). destruct m as [sh ax|k ax].
  - cbn [way]. rewrite Rplus_0_r. set (W := match shift_vector sh ax with Ok v => vnorm v | Err _ => 0 end). pose proof (operation_translate sh ax) as OP. fold W in OP. unfold fl_translate, translate.
    destruct (iso_ok (iso_translation _ _ _ _)) as [s|er], (iso_ok (fl_iso_translation rnd dot3 _ _ _ _)) as [sh'|er']; cbn [both bind] in *; try tauto; [|auto].
    pose proof (tv_step n L 0 W s sh' _ _ _ ltac:(lia) OP R' R DI) as TS. destruct (fl_transform_vectors _ _ _ _) as [t|], (transform_vectors _ _) as [t'|]; cbn [both bind] in *; auto.
    destruct TS as (T1 & T2 & T3). unfold box_inv. cbn [bc_cat boxsize boxcenter]. split; [apply (vec_step n L _ _ _ 0 W s sh' false); auto|]. split; auto.
    destruct SI as [A B]. split; auto. eapply Rle_trans; [apply B|]. pose proof (pow_mono u eps U0 UE n (n + 4) ltac:(lia)). pose proof (vnorm_nonneg (boxsize c0)). apply Rmult_le_compat_r; lra.
  - cbn [way]. pose proof (operation_rotate k ax F) as OP. unfold fl_rotate, rotate. cbv zeta.
    destruct (iso_ok (iso_rotation _ _ _ _ _)) as [s|er], (iso_ok (fl_iso_rotation rnd dot3 _ _ _ _ _ _ _)) as [sh'|er']; cbn [both bind] in *; try tauto; [|auto].
    pose proof (tv_step n L 2 0 s sh' _ _ _ ltac:(lia) OP R' R DI) as TS. destruct (fl_transform_vectors _ _ _ _) as [t|], (transform_vectors _ _) as [t'|]; cbn [both bind] in *; auto.
    destruct TS as (T1 & T2 & T3). unfold box_inv. cbn [bc_cat boxsize boxcenter]. split; [apply (vec_step n L _ _ _ 2 0 s sh' false); auto|]. split; auto.
    pose proof (vec_step n 0 _ _ _ 2 0 s sh' true ltac:(lia) OP SI) as [A B]. rewrite Rplus_0_r in A, B. split; [rewrite vabs_norm; auto|]. eapply Rle_trans; [apply vabs_close|]. auto.
Qed.
Lemma moves_step : forall ms n L c0 c' c, Forall (few_turns u eps) ms -> box_inv n L c0 c' c ->
  both (box_inv (n + 4 * List.length ms) (L + way ms) c0) (rounded_moves rnd dot3 fcos fsin c' ms) (exact_moves c ms).
Proof.
  induction ms as [|m ms IH]; intros n L c0 c' c F I.
  - cbn. rewrite Rplus_0_r, Nat.add_0_r. auto.
  - inversion F as [|? ? Fm Fs]; subst. pose proof (move_step n L c0 c' c m Fm I) as MS. destruct m as [sh ax|k ax]; cbn [rounded_moves exact_moves].
    + destruct (fl_translate _ _ _ _ _) as [d'|], (translate _ _ _) as [d|]; cbn [both bind] in *; auto; try tauto. specialize (IH _ _ _ _ _ Fs MS). cbn [way List.length] in *.
      replace (n + 4 * S (List.length ms))%nat with (n + 4 + 4 * List.length ms)%nat by lia. rewrite Rplus_0_r in IH. rewrite <- Rplus_assoc. exact IH.
    + destruct (fl_rotate _ _ _ _ _ _ _) as [d'|], (rotate _ _ _) as [d|]; cbn [both bind] in *; auto; try tauto. specialize (IH _ _ _ _ _ Fs MS). cbn [way List.length] in *.
      replace (n + 4 * S (List.length ms))%nat with (n + 4 + 4 * List.length ms)%nat by lia. rewrite Rplus_0_r in IH. exact IH.
Qed.
Lemma inv_start : forall c, box_inv 0 0 c c c.
Proof.
  assert (V : forall v, vec_inv 0 0 v v v) by (intros v; unfold vec_inv; rewrite vsub_self, vnorm_vzero; cbn; lra).
  assert (RW : forall l, rows_inv 0 0 l l l) by (induction l; constructor; auto).
  intros c. unfold box_inv. split; [apply V|]. split; [apply V|]. split; [unfold same_roles; auto|]. split; [unfold same_roles; auto|]. induction (pc_data (bc_cat c)) as [|[n x] d IH]; constructor; auto.
  destruct (mem n (pc_vectors (bc_cat c))) eqn:M; [|apply ci_kept; auto]. destruct x as [l|l]; [|apply ci_scal; auto]. apply ci_moved; auto. destruct (mem n (pc_invariants (bc_cat c))); auto.
Qed.
End Moves.
