(** C99: moves of boxes under rounding. Vocabulary in Slip_Spec.v, Drift_Spec.v, Round_Spec.v and Box_Spec.v. *)
Require Import String Reals Lra Lia Psatz ZArith List Bool.
From Flocq Require Import Core.
From Verif Require Import Base Vec3 Isometry_Model Isometry_Spec Isometry_Proof Box_Model Box_Spec Box_Proof Box_Thm Round_Model Round_Spec Round_Thm Drift_Model Drift_Spec Drift_Proof Drift_Thm
  Slip_Model Slip_Spec Slip_Proof.
Import ListNotations.
Open Scope R_scope.

(** ** Translations *)
(** The center and the positions are moved with one rounding per coordinate; size, velocities and other columns are kept exactly. *)
Theorem C99_translate : forall rnd dot3 c sh ax v, exact_on_axes rnd dot3 -> shift_means sh ax v -> float_vec rnd v -> float_box rnd c -> vectors_ok (bc_cat c) ->
  exists c', fl_translate rnd dot3 c sh ax = Ok c' /\ boxsize c' = boxsize c /\ boxcenter c' = shifted rnd v (boxcenter c) /\
    names (bc_cat c') = names (bc_cat c) /\ same_roles (bc_cat c) (bc_cat c') /\
    (forall n l, column (bc_cat c) n = Some (ColV l) -> moves (bc_cat c) n -> column (bc_cat c') n = Some (ColV (map (shifted rnd v) l))) /\
    (forall n x, column (bc_cat c) n = Some x -> ~ moves (bc_cat c) n -> column (bc_cat c') n = Some x).
Proof. intros. apply fl_translate_thm; auto. Qed.
Print Assumptions C99_translate.

(** Objects are never exchanged along an axis, whatever the rounding mode; they may end at the same place. *)
Theorem C99_order : forall rnd v p q, rounding rnd ->
  (vx p <= vx q -> vx (shifted rnd v p) <= vx (shifted rnd v q)) /\ (vy p <= vy q -> vy (shifted rnd v p) <= vy (shifted rnd v q)) /\ (vz p <= vz q -> vz (shifted rnd v p) <= vz (shifted rnd v q)).
Proof. intros rnd v p q [M _]. unfold shifted. cbn. repeat split; intros; apply M; lra. Qed.
Print Assumptions C99_order.

(** recenter: the center is at the origin exactly, the positions are p - center rounded once, and a second call changes nothing. *)
Theorem C99_recenter : forall rnd dot3 c, rounding rnd -> (forall x, float_of rnd x -> float_of rnd (- x)) -> exact_on_axes rnd dot3 -> float_box rnd c -> vectors_ok (bc_cat c) ->
  exists c', fl_recenter rnd dot3 c = Ok c' /\ boxcenter c' = vzero /\ boxsize c' = boxsize c /\ names (bc_cat c') = names (bc_cat c) /\
    (forall n l, column (bc_cat c) n = Some (ColV l) -> moves (bc_cat c) n -> column (bc_cat c') n = Some (ColV (map (shifted rnd (vopp (boxcenter c))) l))) /\
    (forall n x, column (bc_cat c) n = Some x -> ~ moves (bc_cat c) n -> column (bc_cat c') n = Some x) /\
    exists c'', fl_recenter rnd dot3 c' = Ok c'' /\ boxcenter c'' = boxcenter c' /\ boxsize c'' = boxsize c' /\ names (bc_cat c'') = names (bc_cat c') /\
      forall n x, column (bc_cat c') n = Some x -> column (bc_cat c'') n = Some x.
Proof.
  intros rnd dot3 c (MO & ID & RZ) OP AX FB W. assert (FV : float_vec rnd (vopp (boxcenter c))) by (destruct FB as (_ & (X & Y & Z) & _); repeat split; cbn; apply OP; auto).
  destruct (fl_translate_thm rnd dot3 AX c _ _ _ (sm_vec (vopp (boxcenter c))) FV FB W) as (c' & E & S & C & N & R & A & B).
  destruct (fl_translate_float rnd dot3 AX c _ _ _ c' ID (sm_vec (vopp (boxcenter c))) FV FB W E) as [FB' W'].
  assert (C0 : boxcenter c' = vzero) by (rewrite C; destruct (boxcenter c) as [x y z]; unfold shifted, vopp, vzero; cbn; rewrite !Rplus_opp_r, RZ; reflexivity).
  exists c'. split; [exact E|]. split; [exact C0|]. split; [exact S|]. split; [exact N|]. split; [exact A|]. split; [exact B|].
  assert (FV' : float_vec rnd (vopp (boxcenter c'))) by (rewrite C0; unfold vopp, vzero, float_vec, float_of; cbn; rewrite Ropp_0; auto).
  destruct (fl_translate_thm rnd dot3 AX c' _ _ _ (sm_vec (vopp (boxcenter c'))) FV' FB' W') as (d & E2 & S2 & C2 & N2 & R2 & A2 & B2).
  assert (NO : forall p, float_vec rnd p -> shifted rnd (vopp (boxcenter c')) p = p).
  { intros [x y z] (X & Y & Z). rewrite C0. unfold shifted, vopp, vzero, float_of in *. cbn in *. rewrite Ropp_0, !Rplus_0_r, X, Y, Z. reflexivity. }
  exists d. split; [exact E2|]. split; [rewrite C2; apply NO; apply FB'|]. split; [exact S2|]. split; [exact N2|]. intros n x K.
  destruct (in_dec string_dec n (pc_vectors (bc_cat c'))) as [I|I]; [|apply B2; auto; unfold moves; tauto].
  destruct (in_dec string_dec n (pc_invariants (bc_cat c'))) as [J|J]; [apply B2; auto; unfold moves; tauto|].
  destruct (column_in_vec _ _ _ W' K I) as [l ->]. rewrite (A2 n l K (conj I J)). do 2 f_equal. rewrite <- (map_id l) at 2. apply map_ext_in. intros p P. apply NO.
  destruct FB' as (_ & _ & FD). pose proof (FD n l (lookup_In _ _ _ K) I) as F. rewrite Forall_forall in F. auto.
Qed.
Print Assumptions C99_recenter.

(** There and back: exact if the moved coordinate needed no rounding, else within two roundings of its size. *)
Theorem C99_back : forall rnd u v p, accurate u rnd -> 0 <= u <= 1 -> float_vec rnd p ->
  let q := shifted rnd (vopp v) (shifted rnd v p) in
  (Rabs (vx q - vx p) <= u * (Rabs (vx p) + 2 * Rabs (vx p + vx v)) /\ Rabs (vy q - vy p) <= u * (Rabs (vy p) + 2 * Rabs (vy p + vy v)) /\ Rabs (vz q - vz p) <= u * (Rabs (vz p) + 2 * Rabs (vz p + vz v))) /\
  (float_vec rnd (vadd p v) -> q = p).
Proof.
  intros rnd u v p A U (X & Y & Z). cbv zeta. unfold float_of in *.
  assert (Q : forall x s, Rabs (rnd (rnd (x + s) + - s) - x) <= u * (Rabs x + 2 * Rabs (x + s))).
  { intros x s. pose proof (A (x + s)) as A1. set (y := rnd (x + s)) in *. pose proof (A (y + - s)) as A2.
    assert (D : Rabs (y + - s - x) <= u * Rabs (x + s)) by (replace (y + - s - x) with (y - (x + s)) by ring; auto).
    assert (B : Rabs (y + - s) <= Rabs x + u * Rabs (x + s)) by (replace (y + - s) with (x + (y + - s - x)) by ring; pose proof (Rabs_triang x (y + - s - x)); lra).
    replace (rnd (y + - s) - x) with ((rnd (y + - s) - (y + - s)) + (y + - s - x)) by ring. eapply Rle_trans; [apply Rabs_triang|].
    pose proof (Rabs_pos (x + s)). assert (u * Rabs (y + - s) <= u * (Rabs x + u * Rabs (x + s))) by (apply Rmult_le_compat_l; lra). assert (u * (u * Rabs (x + s)) <= 1 * (u * Rabs (x + s))) by (apply Rmult_le_compat_r; [apply Rmult_le_pos|]; lra). lra. }
  split; [unfold shifted, vopp; cbn [vx vy vz]; repeat split; apply Q|]. intros (X' & Y' & Z'). unfold float_of, vadd in *. cbn [vx vy vz] in *. destruct p as [x y z], v as [a b c]. unfold shifted, vopp. cbn [vx vy vz] in *.
  rewrite X', Y', Z'. replace (x + a + - a) with x by ring. replace (y + b + - b) with y by ring. replace (z + c + - c) with z by ring. rewrite X, Y, Z. reflexivity.
Qed.
Print Assumptions C99_back.
(** In double precision, a translation and its opposite may not bring an object back. *)
Theorem C99_back_refuted : exists v p, float_vec double v /\ float_vec double p /\ shifted double (vopp v) (shifted double v p) <> p.
Proof.
  exists (V 1 0 0), (V (- bpow radix2 (-60)) 0 0). assert (Z : float_of double 0) by apply double_rounding.
  assert (B : float_of double (- bpow radix2 (-60))) by (unfold float_of, double; rewrite round_NE_opp; f_equal; apply double_bpow; lia).
  split; [repeat split; auto; apply double_one|]. split; [repeat split; auto|]. intros E. apply (f_equal vx) in E. revert E. unfold shifted, vopp. cbn [vx vy vz].
  replace (- bpow radix2 (-60) + 1) with (1 - 1 * bpow radix2 (-60)) by ring. rewrite absorbed; [|apply double_one|change 1 with (bpow radix2 0); apply bpow_le; lia]. rewrite Rplus_opp_r.
  unfold float_of in Z. rewrite Z. pose proof (bpow_gt_0 radix2 (-60)). lra.
Qed.
Print Assumptions C99_back_refuted.

(** ** Histories *)
Section Histories.
Variables (rnd : R -> R) (dot3 : vec -> vec -> R) (fcos fsin : R -> R) (u g eps : R).
Hypothesis ARND : accurate u rnd.
Hypothesis ADOT : accurate_dot g dot3.
Hypothesis ACOS : accurate_fun (2 * u) fcos cos.
Hypothesis ASIN : accurate_fun (2 * u) fsin sin.
Hypothesis U0 : 0 <= u.
Hypothesis UE : u <= eps.
Hypothesis G0 : 0 <= g.
Hypothesis GE : 6 * g <= eps.
Hypothesis E1 : eps <= 1 / 5.

(** After n moves, center, size and every vector are within ((1 + eps)^(4 n) - 1) (L + |v|) of the exact ones (L = 0 for the size and
    for velocities), other columns are the same, and the rounded moves raise exactly when, and what, the exact ones raise. *)
Theorem C99_moves : forall ms c, Forall (few_turns u eps) ms ->
  both (box_within ((1 + eps) ^ (4 * List.length ms) - 1) (way ms) c) (rounded_moves rnd dot3 fcos fsin c ms) (exact_moves c ms).
Proof.
  intros ms c F. pose proof (moves_step rnd dot3 fcos fsin u g eps ARND ADOT ACOS ASIN U0 UE G0 GE E1 ms 0 0 c c c F (inv_start eps c)) as M. rewrite Rplus_0_l, Nat.add_0_l in M.
  destruct (rounded_moves _ _ _ _ _ _) as [c'|], (exact_moves c ms) as [d|]; cbn [both] in *; auto.
  destruct M as ([_ C] & [_ S] & R' & R & D). unfold box_within. split; [exact C|]. split; [exact S|]. split; [exact R'|]. split; [exact R|].
  revert D. generalize (pc_vectors (bc_cat c)) (pc_invariants (bc_cat c)). intros vs is D.
  assert (RW : forall L l0 l' l, rows_inv eps (4 * List.length ms) L l0 l' l -> rows_within ((1 + eps) ^ (4 * List.length ms) - 1) L l0 l' l).
  { intros L l0 l' l I. induction I as [|v0 v' v l0 l' l [_ V] I IH]; constructor; auto. }
  induction D as [|n x0 x' x t0 t' t CI D IH]; constructor; auto. inversion CI; subst; [constructor|apply cw_number|apply cw_moved]; auto.
Qed.

(** Exact moves: sizes stay positive and objects stay in the box. *)
Lemma exact_contained : forall ms c d, Forall straight ms -> vectors_ok (bc_cat c) -> 0 <= vx (boxsize c) -> 0 <= vy (boxsize c) -> 0 <= vz (boxsize c) -> exact_moves c ms = Ok d ->
  forall n l, column (bc_cat c) n = Some (ColV l) -> moves (bc_cat c) n -> Forall (contained (boxsize c) (boxcenter c)) l ->
  exists l', column (bc_cat d) n = Some (ColV l') /\ Forall (contained (boxsize d) (boxcenter d)) l'.
Proof.
  induction ms as [|m ms IH]; intros c d S W X Y Z E n l K M F; cbn [exact_moves] in E.
  - injection E as <-. eauto.
  - inversion S as [|? ? Sm Ss]; subst.
    assert (VO : forall s t, transform_vectors s (bc_cat c) = Ok t -> vectors_ok t).
    { intros s t T k x I J. unfold transform_vectors in T. match type of T with (do d <- ?Q; _) = _ => destruct Q as [dd|] eqn:EQ end; [|discriminate]. cbn [bind] in T. injection T as <-. cbn [pc_data pc_vectors] in *.
      clear - EQ I J. revert dd EQ I. induction (pc_data (bc_cat c)) as [|[a y] q IH]; cbn [map_cols]; intros dd EQ I.
      - injection EQ as <-. destruct I.
      - match type of EQ with (do c' <- ?Q; _) = _ => destruct Q as [y'|] eqn:EY end; [|discriminate]. cbn [bind] in EQ.
        match type of EQ with (do d' <- ?Q; _) = _ => destruct Q as [d'|] eqn:ED end; [|discriminate]. cbn [bind] in EQ. injection EQ as <-.
        destruct I as [I|I]; [|eapply IH; eauto]. injection I as -> ->. apply mem_In in J. rewrite J in EY. unfold transform_col in EY. destruct y as [l|]; [|discriminate]. injection EY as <-. eauto. }
    destruct m as [sh ax|k ax].
    + destruct (translate c sh ax) as [c1|] eqn:T; [|discriminate]. cbn [bind] in E. unfold translate in T.
      destruct (iso_ok (iso_translation iso_new sh ax "origin")) as [s|] eqn:OP; [|discriminate]. cbn [bind] in T. destruct (transform_vectors s (bc_cat c)) as [t|] eqn:TV; [|discriminate]. cbn [bind] in T. injection T as <-.
      assert (SH : exists v, s = Iso mid v).
      { unfold iso_translation in OP. destruct (shift_vector sh ax) as [v|]; [|discriminate]. cbn in OP. injection OP as <-. eauto. }
      destruct SH as [v ->]. destruct (tv_spec _ _ _ TV) as (_ & PV & PI & _ & _ & _ & _ & B & _).
      eapply (IH _ d Ss); [..|exact E|exact (B n l K M)| |]; cbn [bc_cat boxsize boxcenter]; auto; [eapply VO; eauto|unfold moves; rewrite PV, PI; exact M|].
      rewrite Forall_forall in *. intros q Q. apply in_map_iff in Q. destruct Q as (p & <- & P). change (contained (boxsize c) (transform (Iso mid v) false (boxcenter c)) (transform (Iso mid v) false p)). rewrite !transform_shift. apply C13_containment. auto.
    + destruct Sm as [a AM]. destruct (rotate c k ax) as [c1|] eqn:T; [|discriminate]. cbn [bind] in E.
      destruct (rotate_thm c k a ax AM W) as (c1' & T' & S1 & C1 & _ & B & _). rewrite T in T'. injection T' as <-.
      assert (RS : vectors_ok (bc_cat c1) /\ pc_vectors (bc_cat c1) = pc_vectors (bc_cat c) /\ pc_invariants (bc_cat c1) = pc_invariants (bc_cat c)).
      { unfold rotate in T. destruct (iso_ok _) as [s|]; [|discriminate]. cbn [bind] in T. destruct (transform_vectors s (bc_cat c)) as [t|] eqn:TV; [|discriminate]. cbn [bind] in T. injection T as <-.
        destruct (tv_spec _ _ _ TV) as (_ & PV & PI & _). cbn [bc_cat]. split; [eapply VO; eauto|auto]. }
      destruct RS as (W1 & PV & PI).
      eapply (IH c1 d Ss); [exact W1|rewrite S1; apply Rabs_pos|rewrite S1; apply Rabs_pos|rewrite S1; apply Rabs_pos|exact E|apply (B n l K), M|unfold moves; rewrite PV, PI; exact M|].
      rewrite Forall_forall in *. intros q Q. apply in_map_iff in Q. destruct Q as (p & <- & P). rewrite S1, C1. apply C12_containment; auto.
Qed.
Lemma data_within_lookup : forall E L vs is d0 d' d n, data_within E L vs is d0 d' d -> mem n vs = true -> mem n is = false ->
  forall l0, lookup n d0 = Some (ColV l0) -> exists l' l, lookup n d' = Some (ColV l') /\ lookup n d = Some (ColV l) /\ rows_within E L l0 l' l.
Proof.
  intros E L vs is d0 d' d n D V NI. induction D as [|m x0 x' x d0 d' d CI D IH]; intros l0 K; [discriminate|]. cbn [lookup] in *. destruct (String.eqb n m) eqn:NM; [|auto].
  apply String.eqb_eq in NM. subst m. injection K as ->. rewrite V, NI in CI. inversion CI; subst; [discriminate|]. eauto.
Qed.

(** Objects of the box are, after the rounded moves, in the rounded box, within twice the bound for a position as far as the farthest
    of the object, the center and the corner. *)
Theorem C99_contained : forall ms c c' n l, Forall (few_turns u eps) ms -> Forall straight ms -> vectors_ok (bc_cat c) ->
  0 <= vx (boxsize c) -> 0 <= vy (boxsize c) -> 0 <= vz (boxsize c) -> rounded_moves rnd dot3 fcos fsin c ms = Ok c' ->
  column (bc_cat c) n = Some (ColV l) -> moves (bc_cat c) n -> Forall (contained (boxsize c) (boxcenter c)) l ->
  exists l', column (bc_cat c') n = Some (ColV l') /\
    Forall2 (fun p q => contained_within (((1 + eps) ^ (4 * List.length ms) - 1) * (2 * way ms + vnorm p + vnorm (boxcenter c) + vnorm (boxsize c) / 2)) (boxsize c') (boxcenter c') q) l l'.
Proof.
  intros ms c c' n l FT ST W X Y Z RM K M F. pose proof (C99_moves ms c FT) as B. rewrite RM in B. destruct (exact_moves c ms) as [d|] eqn:EM; [|destruct B]. cbn [both] in B.
  destruct (exact_contained ms c d ST W X Y Z EM n l K M F) as (le & KE & FE).
  set (E := (1 + eps) ^ (4 * List.length ms) - 1) in *. set (L := way ms) in *. destruct B as (C & S & _ & _ & D). destruct M as [M1 M2]. apply mem_In in M1. apply mem_nIn in M2.
  destruct (data_within_lookup _ _ _ _ _ _ _ n D M1 M2 l K) as (l' & le' & K' & KE' & RW). unfold column in KE. rewrite KE in KE'. injection KE' as <-.
  exists l'. split; [exact K'|]. clear K KE K' F. induction RW as [|v0 v' v l0 l' le V RW IH]; constructor.
  - inversion FE as [|? ? (CX & CY & CZ) FE']; subst. unfold vec_within in *. pose proof (coord_le (vsub v' v)) as (VX & VY & VZ). pose proof (coord_le (vsub (boxcenter c') (boxcenter d))) as (DX & DY & DZ).
    pose proof (coord_le (vsub (boxsize c') (boxsize d))) as (SX & SY & SZ). unfold vsub in *. cbn [vx vy vz] in *. rewrite Rplus_0_l in S.
    assert (Q : forall a b a' b' s s', Rabs (a - b) <= s / 2 -> Rabs (a' - a) <= E * (L + vnorm v0) -> Rabs (b' - b) <= E * (L + vnorm (boxcenter c)) -> Rabs (s' - s) <= E * vnorm (boxsize c) ->
      Rabs (a' - b') <= s' / 2 + E * (2 * L + vnorm v0 + vnorm (boxcenter c) + vnorm (boxsize c) / 2)).
    { intros a b a' b' s s' H1 H2 H3 H4. pose proof (Rle_abs (a - b)). pose proof (Rle_abs (- (a - b))). rewrite Rabs_Ropp in *. pose proof (Rle_abs (a' - a)). pose proof (Rle_abs (- (a' - a))). rewrite Rabs_Ropp in *. pose proof (Rle_abs (b' - b)). pose proof (Rle_abs (- (b' - b))). rewrite Rabs_Ropp in *. pose proof (Rle_abs (s' - s)). pose proof (Rle_abs (- (s' - s))). rewrite Rabs_Ropp in *. apply Rabs_le. lra. }
    split; [apply (Q _ _ _ _ _ _ CX); lra|]. split; [apply (Q _ _ _ _ _ _ CY); lra|apply (Q _ _ _ _ _ _ CZ); lra].
  - apply IH. inversion FE; auto.
Qed.
End Histories.
Print Assumptions C99_moves.
Print Assumptions C99_contained.

(** ** The hypotheses hold *)
(** The products from left to right are exact on the axes, for any rounding. *)
Theorem C99_left : forall rnd, rounding rnd -> exact_on_axes rnd (dot3_left rnd).
Proof.
  intros rnd (_ & _ & Z) [x y z] (X & Y & W). unfold float_of, dot3_left in *. cbn [vx vy vz] in *.
  repeat split; rewrite ?Rmult_1_l, ?Rmult_0_l, ?Z, ?X, ?Y, ?W, ?Rplus_0_l, ?Rplus_0_r, ?X, ?Y, ?W, ?Z, ?Rplus_0_l, ?Rplus_0_r, ?X, ?Y, ?W; reflexivity.
Qed.
Print Assumptions C99_left.
Lemma half_int : forall m, (Z.abs m < 2 ^ 53)%Z -> float_of double (IZR m / 2).
Proof.
  intros m M. apply format_float. replace (IZR m / 2) with (F2R (Float radix2 m (-1))) by (unfold F2R; cbn; lra).
  apply generic_format_FLT. exists (Float radix2 m (-1)); cbn; auto; lia.
Qed.
Lemma two_floats : float_box double two_particles.
Proof.
  assert (H : forall x m, x = IZR m / 2 -> (Z.abs m < 2 ^ 53)%Z -> float_of double x) by (intros x m -> M; apply half_int; auto).
  assert (V0 : float_of double 0) by (apply (H 0 0%Z); [lra|lia]). assert (V1 : float_of double 1) by (apply (H 1 2%Z); [lra|lia]). assert (V2 : float_of double 2) by (apply (H 2 4%Z); [lra|lia]).
  assert (V4 : float_of double 4) by (apply (H 4 8%Z); [lra|lia]). assert (V6 : float_of double 6) by (apply (H 6 12%Z); [lra|lia]). assert (VH : float_of double (1 / 2)) by (apply (H (1 / 2) 1%Z); [lra|lia]).
  assert (VM : float_of double (-1)) by (apply (H (-1) (-2)%Z); [lra|lia]).
  split; [repeat split; auto|]. split; [repeat split; auto|]. intros n l I _. cbn in I. destruct I as [I|[I|[I|[]]]]; try discriminate; injection I as <- <-; repeat constructor; auto.
Qed.
(** A shift by 3 along y of the two particles in double precision. *)
Example C99_case : rounding double /\ exact_on_axes double (dot3_left double) /\ (forall x, float_of double x -> float_of double (- x)) /\ shift_means (ShScalar 3) (AxStr "y") (V 0 3 0) /\ float_vec double (V 0 3 0) /\
  float_box double two_particles /\ vectors_ok (bc_cat two_particles) /\ boxcenter two_particles <> vzero.
Proof.
  split; [apply double_rounding|]. split; [apply C99_left, double_rounding|].
  split; [intros x X; unfold float_of, double in *; rewrite round_NE_opp; f_equal; auto|]. split; [constructor|].
  assert (V0 : float_of double 0) by apply double_rounding. assert (V3 : float_of double 3) by (replace 3 with (IZR 6 / 2) by lra; apply half_int; lia).
  split; [repeat split; auto|]. split; [apply two_floats|]. split; [apply C12_case|]. unfold two_particles, vzero. cbn. intros E. apply (f_equal vx) in E. cbn in E. lra.
Qed.
(** A translation by 1000 along x, three quarter turns about z, one back about y: all hypotheses hold with eps = 10^-10. *)
Example C99_case_moves : let u := unit_roundoff in let eps := / 10 ^ 10 in
  let ms := [BTranslate (ShScalar 1000) (AxStr "x"); BRotate 3 (AxIdx 2); BRotate (-1) (AxStr "y")] in
  accurate u double_free /\ accurate_dot (4 * u) (dot3_left double_free) /\ accurate_fun (2 * u) cos cos /\ accurate_fun (2 * u) sin sin /\
  0 <= u /\ u <= eps /\ 6 * (4 * u) <= eps /\ eps <= 1 / 5 /\ Forall (few_turns u eps) ms /\ Forall straight ms /\ way ms = 1000 /\
  Forall (contained (boxsize two_particles) (boxcenter two_particles)) [V 1 0 0; V 0 (1 / 2) (-1)] /\ column (bc_cat two_particles) "Position" = Some (ColV [V 1 0 0; V 0 (1 / 2) (-1)]) /\
  moves (bc_cat two_particles) "Position" /\ exists c', rounded_moves double_free (dot3_left double_free) cos sin two_particles ms = Ok c'.
Proof.
  cbv zeta. assert (U : 0 <= unit_roundoff <= 1 / 10 ^ 15) by (unfold unit_roundoff; cbn; lra).
  assert (E : / 10 ^ 10 = 1 / 10000000000) by (cbn; lra). assert (U' : 0 <= unit_roundoff <= 1 / 1000000000000000) by (cbn in U; lra).
  assert (AD : accurate_dot (4 * unit_roundoff) (dot3_left double_free)) by (apply C83_left; [lra|apply C83_double]).
  assert (Z : forall f : R -> R, accurate_fun (2 * unit_roundoff) f f) by (intros f x; rewrite Rminus_eq_0, Rabs_R0; lra).
  assert (FT : Forall (few_turns unit_roundoff (/ 10 ^ 10)) [BTranslate (ShScalar 1000) (AxStr "x"); BRotate 3 (AxIdx 2); BRotate (-1) (AxStr "y")]).
  { rewrite E. pose proof PI_RGT_0. pose proof PI_4. assert (A : Rabs (3 * PI / 2) <= 7) by (apply Rabs_le; lra). assert (B : Rabs (-1 * PI / 2) <= 7) by (apply Rabs_le; lra).
    assert (Q : forall t, t <= 7 -> 5000 * unit_roundoff * (1 + t) <= 1 / 10000000000) by (intros t T; apply Rle_trans with (5000 * unit_roundoff * 8); [apply Rmult_le_compat_l; lra|lra]).
    constructor; [exact Logic.I|]. constructor; [apply Q, A|]. constructor; [apply Q, B|constructor]. }
  split; [apply C83_double|]. split; [exact AD|]. split; [apply Z|]. split; [apply Z|]. assert (EE : unit_roundoff <= / 10 ^ 10 /\ 6 * (4 * unit_roundoff) <= / 10 ^ 10 /\ / 10 ^ 10 <= 1 / 5) by (rewrite E; lra).
  destruct EE as (E1 & E2 & E3). split; [lra|]. split; [exact E1|]. split; [exact E2|]. split; [exact E3|]. split; [exact FT|].
  split; [constructor; [exact Logic.I|]; constructor; [exists Box_Spec.Z; cbn; auto|]; constructor; [exists Y; cbn; auto|constructor]|].
  split; [unfold way; cbn; unfold vnorm, vdot; cbn; replace (1000 * 1000 + 0 * 0 + 0 * 0) with (1000 * 1000) by ring; rewrite sqrt_square by lra; lra|].
  split; [repeat constructor; cbn; unfold Rabs; repeat destruct (Rcase_abs _); lra|]. split; [reflexivity|]. split; [split; cbn; [auto|intros [H|[]]; discriminate]|].
  assert (G : 0 <= 4 * unit_roundoff) by lra.
  pose proof (C99_moves double_free (dot3_left double_free) cos sin unit_roundoff (4 * unit_roundoff) (/ 10 ^ 10) C83_double AD (Z cos) (Z sin) (proj1 U') E1 G E2 E3 _ two_particles FT) as B.
  destruct (rounded_moves _ _ _ _ _ _) as [c'|er]; [eauto|]. exfalso. revert B.
  destruct (translate_thm two_particles _ _ _ (sm_x 1000) (proj2 C12_case)) as (c1 & T1 & _). cbn [exact_moves]. rewrite T1. cbn [bind].
  assert (W1 : vectors_ok (bc_cat c1)) by (unfold translate in T1; cbn in T1; injection T1 as <-; intros n x I J; cbn in I, J; destruct I as [I|[I|[I|[]]]]; injection I as <- <-; eauto; cbn in J; destruct J as [J|[J|[]]]; discriminate).
  destruct (rotate_thm c1 3 Box_Spec.Z (AxIdx 2) ltac:(cbn; auto) W1) as (c2 & T2 & _). rewrite T2. cbn [bind].
  assert (W2 : vectors_ok (bc_cat c2)).
  { destruct (rotate_thm c1 3 Box_Spec.Z (AxIdx 2) ltac:(cbn; auto) W1) as (c2' & T2' & _). unfold rotate in T2. destruct (iso_ok _) as [s|]; [|discriminate]. cbn [bind] in T2. unfold translate in T1; cbn in T1; injection T1 as <-.
    cbn in T2. injection T2 as <-. intros n x I J; cbn in I, J; destruct I as [I|[I|[I|[]]]]; injection I as <- <-; eauto; cbn in J; destruct J as [J|[J|[]]]; discriminate. }
  destruct (rotate_thm c2 (-1) Y (AxStr "y") ltac:(cbn; auto) W2) as (c3 & T3 & _). rewrite T3. cbn [bind]. intros [].
Qed.
