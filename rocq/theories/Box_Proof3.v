Require Import Reals Lra Lia ZArith List Bool String Sorted Permutation.
From Verif Require Import Base Vec3 Isometry_Model Isometry_Spec Isometry_Proof Sky_Model Sky_Spec Sky_Proof
  Cutsky_Model Cutsky_Spec Cutsky_Proof Box_Model Box_Spec Box_Proof Box_Proof2.
Import ListNotations.
Open Scope R_scope.

(* ---------- cut_centers ---------- *)
Lemma fdiv_ok : forall a b, b <> 0 -> fdiv a b = Ok (a / b).
Proof. intros a b H. unfold fdiv. destruct (Req_EM_T b 0); congruence. Qed.
Lemma fdiv_inv : forall a b q, fdiv a b = Ok q -> b <> 0 /\ q = a / b.
Proof. intros a b q H. unfold fdiv in H. destruct (Req_EM_T b 0); [discriminate|]. injection H as <-. auto. Qed.

Lemma trunc_le : forall q n, Rtrunc q = n -> (0 < n)%Z -> IZR n <= q < IZR n + 1.
Proof.
  intros q n H P. unfold Rtrunc in H. destruct (Rlt_dec q 0) as [Q|Q].
  - exfalso. pose proof (Rceil_spec q) as F. rewrite H in F. assert (1 <= n)%Z by lia. apply IZR_le in H0. lra.
  - subst n. apply Rfloor_spec.
Qed.

(* the placed intervals: low_i = e + (b + m) i *)
Definition place (L center b e m : R) (n : nat) : list R :=
  map (fun i => (e + (b + m) * INR i + (e + (b + m) * INR i + b)) / 2 - L / 2 + center) (seq 0 n).

Lemma place_inside : forall L center b e m n x, 0 <= b -> 0 <= m -> INR n * b + (INR n - 1) * m + 2 * e <= L ->
  In x (place L center b e m n) -> inside1 L center b e x.
Proof.
  intros L center b e m n x B M F I. unfold place in I. apply in_map_iff in I. destruct I as (i & <- & I). apply in_seq in I.
  assert (0 <= INR i) by apply pos_INR. assert (INR i + 1 <= INR n) by (rewrite <- S_INR; apply le_INR; lia).
  unfold inside1. split; [nra|]. nra.
Qed.
Lemma place_apart : forall L center b e m n i j x y, 0 <= b -> 0 <= m -> i <> j ->
  nth_error (place L center b e m n) i = Some x -> nth_error (place L center b e m n) j = Some y -> apart1 b m x y.
Proof.
  intros L center b e m n i j x y B M D Ei Ej. unfold place in *. rewrite nth_error_map in Ei, Ej.
  assert (S : forall k z, nth_error (seq 0 n) k = Some z -> z = k).
  { intros k z H. assert (k < n)%nat. { rewrite <- (seq_length n 0). apply nth_error_Some. congruence. }
    rewrite (nth_error_nth' _ 0%nat) in H by (rewrite seq_length; auto). rewrite seq_nth in H by auto. injection H; auto. }
  destruct (nth_error (seq 0 n) i) eqn:E1; [|discriminate]. destruct (nth_error (seq 0 n) j) eqn:E2; [|discriminate].
  apply S in E1. apply S in E2. subst. cbn in Ei, Ej. injection Ei as <-. injection Ej as <-. unfold apart1.
  match goal with |- _ <= Rabs ?z => replace z with ((b + m) * (INR i - INR j)) by field end.
  rewrite Rabs_mult, (Rabs_right (b + m)) by lra.
  assert (1 <= Rabs (INR i - INR j)).
  { destruct (Nat.lt_ge_cases i j) as [K|K].
    - assert (INR i + 1 <= INR j) by (rewrite <- S_INR; apply le_INR; lia). rewrite Rabs_left by lra. lra.
    - assert (INR j + 1 <= INR i) by (rewrite <- S_INR; apply le_INR; lia). rewrite Rabs_right by lra. lra. }
  nra.
Qed.

Lemma cut_centers_place : forall L center b em im l, 0 < b -> cut_centers L center b em im = Ok l ->
  exists e m n, l = place L center b e m n /\ margin em <= e /\ margin im <= m /\ 0 <= e /\ 0 <= m /\
    (n <> 0%nat -> INR n * b + (INR n - 1) * m + 2 * e <= L) /\
    n = Z.to_nat (Rtrunc ((L - 2 * margin em + margin im) / (b + margin im))) /\ b + margin im <> 0.
Proof.
  intros L center b em0 im0 l B H. unfold cut_centers in H.
  cbn zeta in H. fold (margin em0) (margin im0) in H.
  destruct (fdiv (L - 2 * margin em0 + margin im0) (b + margin im0)) as [q|] eqn:Q; [|discriminate]. cbn [bind] in H.
  apply fdiv_inv in Q. destruct Q as [Q0 Q]. rewrite <- Q in *.
  match type of H with (do m <- ?X; _) = _ => destruct X as [[e1 m1]|] eqn:E end; [|discriminate]. cbn [bind] in H.
  destruct (Rltb e1 0 || Rltb m1 0) eqn:Neg; [discriminate|]. apply orb_false_iff in Neg. destruct Neg as [N1 N2].
  apply Rltb_false in N1. apply Rltb_false in N2.
  set (n := Rtrunc q) in *.
  assert (IN : INR (Z.to_nat n) = IZR n \/ Z.to_nat n = 0%nat).
  { destruct (Z.le_gt_cases 0 n) as [P|P]; [left|right; lia]. rewrite INR_IZR_INZ, Z2Nat.id by lia. auto. }
  assert (A : margin em0 <= e1 /\ margin im0 <= m1).
  { destruct em0 as [e|], im0 as [m|]; cbn [margin] in *.
    - injection E as <- <-. lra.
    - injection E as <- <-. lra.
    - injection E as <- <-. lra.
    - lra. }
  match type of H with (do m <- ?X; _) = _ => destruct X as [[e2 m2]|] eqn:F end; [|discriminate]. cbn [bind] in H. injection H as <-.
  destruct (Rltb 0 e1 || Rltb 0 m1) eqn:Pos.
  - destruct (fdiv (L - b * IZR n) (m1 * (IZR n - 1) + 2 * e1)) as [r|] eqn:Er; [|discriminate]. cbn [bind] in F.
    apply fdiv_inv in Er. destruct Er as [D Er].
    destruct (Rltb r 1) eqn:R1; [discriminate|]. apply Rltb_false in R1. injection F as <- <-.
    exists (r * e1), (r * m1), (Z.to_nat n). split; [reflexivity|].
    assert (X : r * (m1 * (IZR n - 1) + 2 * e1) = L - b * IZR n) by (rewrite Er; field; auto).
    split; [nra|]. split; [nra|]. split; [nra|]. split; [nra|]. split; [|auto]. intros Z0. destruct IN as [IN|IN]; [|contradiction]. rewrite IN. nra.
  - injection F as <- <-. apply orb_false_iff in Pos. destruct Pos as [P1 P2]. apply Rltb_false in P1. apply Rltb_false in P2.
    assert (e1 = 0) by lra. assert (m1 = 0) by lra. subst e1 m1. exists 0, 0, (Z.to_nat n). split; [reflexivity|].
    split; [lra|]. split; [lra|]. split; [lra|]. split; [lra|]. split; [|auto]. intros Z0. destruct IN as [IN|IN]; [|contradiction]. rewrite IN.
    assert (Pn : (0 < n)%Z). { destruct (Z.le_gt_cases n 0); [exfalso; apply Z0; lia|auto]. }
    destruct em0 as [e|], im0 as [m|]; cbn [margin] in *.
    + injection E as -> ->. assert (T := trunc_le q n eq_refl Pn). replace (L - 2 * 0 + 0) with L in Q by ring. replace (b + 0) with b in * by ring.
      assert (q * b = L) by (rewrite Q; field; lra). nra.
    + injection E as ->. assert (T := trunc_le q n eq_refl Pn). replace (L - 2 * 0 + 0) with L in Q by ring. replace (b + 0) with b in * by ring.
      assert (q * b = L) by (rewrite Q; field; lra). nra.
    + injection E as ->. assert (T := trunc_le q n eq_refl Pn). replace (L - 2 * 0 + 0) with L in Q by ring. replace (b + 0) with b in * by ring.
      assert (q * b = L) by (rewrite Q; field; lra). nra.
    + assert (T := trunc_le q n eq_refl Pn). replace (L - 2 * 0 + 0) with L in Q by ring. replace (b + 0) with b in * by ring.
      assert (q * b = L) by (rewrite Q; field; lra). nra.
Qed.

Lemma place_length : forall L center b e m n, List.length (place L center b e m n) = n.
Proof. intros. unfold place. rewrite map_length, seq_length. auto. Qed.

Lemma inside1_weaken : forall L c b e e' x, e' <= e -> inside1 L c b e x -> inside1 L c b e' x.
Proof. unfold inside1; intros; lra. Qed.
Lemma apart1_weaken : forall b m m' x y, m' <= m -> apart1 b m x y -> apart1 b m' x y.
Proof. unfold apart1; intros; lra. Qed.

Lemma cut_centers_sound : forall L center b em im l, 0 < b -> cut_centers L center b em im = Ok l ->
  (forall x, In x l -> inside1 L center b (margin em) x) /\
  (forall i j x y, i <> j -> nth_error l i = Some x -> nth_error l j = Some y -> apart1 b (margin im) x y).
Proof.
  intros L center b em im l B H. destruct (cut_centers_place _ _ _ _ _ _ B H) as (e & m & n & -> & E & M & E0 & M0 & F & _). split.
  - intros x I. assert (n <> 0%nat). { intros ->. destruct I. } apply (inside1_weaken _ _ _ e); auto. eapply place_inside; eauto; lra.
  - intros i j x y D Ei Ej. apply (apart1_weaken _ m); auto. eapply place_apart; eauto; lra.
Qed.
Lemma fits_bound : forall L b em im n, 0 < b + im -> fits L b em im n -> (n <= Z.to_nat (Rtrunc ((L - 2 * em + im) / (b + im))))%nat.
Proof.
  intros L b em im n P F. unfold fits in F.
  assert (K : INR n <= (L - 2 * em + im) / (b + im)).
  { apply (Rmult_le_reg_r (b + im)); auto. replace ((L - 2 * em + im) / (b + im) * (b + im)) with (L - 2 * em + im) by (field; lra). nra. }
  pose proof (pos_INR n). unfold Rtrunc. destruct (Rlt_dec ((L - 2 * em + im) / (b + im)) 0); [lra|].
  assert (Z.of_nat n <= Rfloor ((L - 2 * em + im) / (b + im)))%Z; [|lia].
  rewrite <- (Rfloor_IZR (Z.of_nat n)). apply Rfloor_mono. rewrite <- INR_IZR_INZ. auto.
Qed.
Lemma cut_centers_max : forall L center b em im l n, 0 < b -> 0 <= margin im -> cut_centers L center b em im = Ok l ->
  fits L b (margin em) (margin im) n -> (n <= List.length l)%nat.
Proof.
  intros L center b em im l n B M H F. destruct (cut_centers_place _ _ _ _ _ _ B H) as (e & m & k & -> & _ & _ & _ & _ & _ & -> & _).
  rewrite place_length. apply fits_bound; auto; lra.
Qed.

(* ---------- product of centres ---------- *)
Lemma product3_In : forall l0 l1 l2 v, In v (product3 l0 l1 l2) <-> In (vx v) l0 /\ In (vy v) l1 /\ In (vz v) l2.
Proof.
  intros l0 l1 l2 [x y z]. unfold product3. rewrite in_flat_map. cbn [vx vy vz]. split.
  - intros (a & A & H). apply in_flat_map in H. destruct H as (b & B & H). apply in_map_iff in H. destruct H as (d & H & D). injection H as <- <- <-. auto.
  - intros (A & B & D). exists x. split; auto. apply in_flat_map. exists y. split; auto. apply in_map_iff. exists z. auto.
Qed.
Lemma product3_length : forall l0 l1 l2, List.length (product3 l0 l1 l2) = (List.length l0 * List.length l1 * List.length l2)%nat.
Proof.
  intros l0 l1 l2. unfold product3. induction l0 as [|a l0 IH]; auto. cbn. rewrite app_length, IH.
  assert (E : List.length (flat_map (fun y => map (fun z => V a y z) l2) l1) = (List.length l1 * List.length l2)%nat).
  { clear. induction l1 as [|b l1 IH]; auto. cbn. rewrite app_length, map_length, IH. auto. }
  rewrite E. lia.
Qed.

(* all pairs related *)
Definition pairwise {A} (P : A -> A -> Prop) (l : list A) : Prop :=
  forall i j x y, i <> j -> nth_error l i = Some x -> nth_error l j = Some y -> P x y.
Lemma pairwise_nil : forall {A} (P : A -> A -> Prop), pairwise P [].
Proof. intros A P [|i] j x y _ H; discriminate. Qed.
Lemma pairwise_cons : forall {A} (P : A -> A -> Prop) a l, (forall x, In x l -> P a x /\ P x a) -> pairwise P l -> pairwise P (a :: l).
Proof.
  intros A P a l H W i j x y D Ei Ej. destruct i as [|i], j as [|j]; cbn in *; [congruence| | |].
  - injection Ei as <-. apply H. eapply nth_error_In; eauto.
  - injection Ej as <-. apply H. eapply nth_error_In; eauto.
  - eapply (W i j); eauto.
Qed.
Lemma pairwise_app : forall {A} (P : A -> A -> Prop) l m, pairwise P l -> pairwise P m -> (forall x y, In x l -> In y m -> P x y /\ P y x) -> pairwise P (l ++ m).
Proof.
  intros A P l. induction l as [|a l IH]; intros m L M H; auto. cbn. apply pairwise_cons.
  - intros x I. apply in_app_or in I. destruct I as [I|I].
    + apply In_nth_error in I. destruct I as [i I]. split; [apply (L 0%nat (S i))|apply (L (S i) 0%nat)]; auto.
    + apply H; auto. left; auto.
  - apply IH; auto.
    + intros i j x y D Ei Ej. apply (L (S i) (S j)); auto.
    + intros; apply H; auto. right; auto.
Qed.
Lemma pairwise_sub : forall {A} (P : A -> A -> Prop) l n, pairwise P l -> pairwise P (firstn n l).
Proof.
  intros A P l n W i j x y D Ei Ej. assert (S : forall k z, nth_error (firstn n l) k = Some z -> nth_error l k = Some z).
  { clear. revert n. induction l as [|a l IH]; intros [|n] [|k] z H; cbn in *; try discriminate; auto. eapply IH; eauto. }
  apply (W i j); auto.
Qed.
Lemma pairwise_tail : forall {A} (P : A -> A -> Prop) a l, pairwise P (a :: l) -> pairwise P l /\ forall x, In x l -> P a x /\ P x a.
Proof.
  intros A P a l W. split.
  - intros i j x y D Ei Ej. apply (W (S i) (S j)); auto.
  - intros x I. apply In_nth_error in I. destruct I as [i I]. split; [apply (W 0%nat (S i))|apply (W (S i) 0%nat)]; auto.
Qed.
Lemma product3_pairwise : forall (P0 P1 P2 : R -> R -> Prop) l0 l1 l2, pairwise P0 l0 -> pairwise P1 l1 -> pairwise P2 l2 ->
  pairwise (fun v w => P0 (vx v) (vx w) \/ P1 (vy v) (vy w) \/ P2 (vz v) (vz w)) (product3 l0 l1 l2).
Proof.
  intros P0 P1 P2 l0 l1 l2 W0 W1 W2. unfold product3. induction l0 as [|a l0 IH]; [apply pairwise_nil|]. cbn.
  apply pairwise_tail in W0. destruct W0 as [W0 H0]. apply pairwise_app; auto.
  - clear - W1 W2. induction l1 as [|b l1 IH]; [apply pairwise_nil|]. cbn. apply pairwise_tail in W1. destruct W1 as [W1 H1]. apply pairwise_app; auto.
    + clear - W2. induction l2 as [|d l2 IH]; [apply pairwise_nil|]. cbn. apply pairwise_tail in W2. destruct W2 as [W2 H2]. apply pairwise_cons; auto.
      intros v I. apply in_map_iff in I. destruct I as (z & <- & I). cbn. destruct (H2 z I); auto.
    + intros v w I J. apply in_map_iff in I. destruct I as (z & <- & I). apply in_flat_map in J. destruct J as (y & J & K).
      apply in_map_iff in K. destruct K as (z' & <- & K). cbn. destruct (H1 y J); auto.
  - intros v w I J. apply in_flat_map in I. destruct I as (y & I & K). apply in_map_iff in K. destruct K as (z & <- & K).
    apply in_flat_map in J. destruct J as (x' & J & J2). apply in_flat_map in J2. destruct J2 as (y' & J2 & J3). apply in_map_iff in J3. destruct J3 as (z' & <- & J3).
    cbn. destruct (H0 x' J); auto.
Qed.

(* ---------- isometries ---------- *)
Lemma concat2_transform : forall s o p, transform (iso_concatenate [s; o]) false p = transform o false (transform s false p).
Proof. intros. rewrite concat_transform. reflexivity. Qed.
Lemma centre_then_ok : forall x o, exists s, centre_then x o = Ok s /\ forall p, transform s false p = transform o false (vsub p x).
Proof.
  intros x o. unfold centre_then. rewrite (shift_means_ok _ _ _ (sm_vec (vopp x))). cbn [iso_ok bind]. eexists; split; [reflexivity|].
  intros p. rewrite concat2_transform, transform_shift. reflexivity.
Qed.

Lemma firstn_In : forall {A} n (l : list A) x, In x (firstn n l) -> In x l.
Proof. intros A n l x H. rewrite <- (firstn_skipn n l). apply in_or_app; auto. Qed.

Lemma ifc_list : forall c dr rr de em im no l, isometry_for_cutsky c dr rr de em im no = Ok (IsoList l) ->
  forall b o, cutsky_to_box dr rr de = Ok (b, o) -> 0 < vx b -> 0 < vy b -> 0 < vz b ->
  exists centers, Forall2 (fun s x => forall p, transform s false p = transform o false (vsub p x)) l centers /\
    (forall x, In x centers -> inside1 (vx (boxsize c)) (vx (boxcenter c)) (vx b) (margin (mg0 em)) (vx x) /\
       inside1 (vy (boxsize c)) (vy (boxcenter c)) (vy b) (margin (mg1 em)) (vy x) /\
       inside1 (vz (boxsize c)) (vz (boxcenter c)) (vz b) (margin (mg2 em)) (vz x)) /\
    pairwise (apart b im) centers /\
    (forall n, no = Some n -> List.length l = n) /\
    (no = None -> 0 <= margin (mg0 im) -> 0 <= margin (mg1 im) -> 0 <= margin (mg2 im) ->
      forall n0 n1 n2, fits (vx (boxsize c)) (vx b) (margin (mg0 em)) (margin (mg0 im)) n0 ->
       fits (vy (boxsize c)) (vy b) (margin (mg1 em)) (margin (mg1 im)) n1 -> fits (vz (boxsize c)) (vz b) (margin (mg2 em)) (margin (mg2 im)) n2 ->
       (n0 * n1 * n2 <= List.length l)%nat).
Proof.
  intros c dr rr de em im no l H b o E Bx By Bz. unfold isometry_for_cutsky in H. rewrite E in H. cbn [bind] in H.
  assert (H' : (do l0 <- cut_centers (vx (boxsize c)) (vx (boxcenter c)) (vx b) (mg0 em) (mg0 im);
    do l1 <- cut_centers (vy (boxsize c)) (vy (boxcenter c)) (vy b) (mg1 em) (mg1 im);
    do l2 <- cut_centers (vz (boxsize c)) (vz (boxcenter c)) (vz b) (mg2 em) (mg2 im);
    let nmax := (List.length l0 * List.length l1 * List.length l2)%nat in
    do n <- match no with
            | Some n => if Nat.ltb nmax n then Err ValueError else Ok n
            | None => Ok nmax
            end;
    do l <- map_result (fun x => centre_then x o) (firstn n (product3 l0 l1 l2));
    Ok (IsoList l)) = Ok (IsoList l)).
  { destruct no as [[|[|n]]|]; auto. destruct (centre_then (boxcenter c) o); cbn in H; discriminate. }
  clear H. destruct (cut_centers (vx (boxsize c)) (vx (boxcenter c)) (vx b) (mg0 em) (mg0 im)) as [l0|] eqn:C0; [|discriminate]. cbn [bind] in H'.
  destruct (cut_centers (vy (boxsize c)) (vy (boxcenter c)) (vy b) (mg1 em) (mg1 im)) as [l1|] eqn:C1; [|discriminate]. cbn [bind] in H'.
  destruct (cut_centers (vz (boxsize c)) (vz (boxcenter c)) (vz b) (mg2 em) (mg2 im)) as [l2|] eqn:C2; [|discriminate]. cbn [bind] in H'. cbn zeta in H'.
  match type of H' with (do n <- ?X; _) = _ => destruct X as [n|] eqn:N end; [|discriminate]. cbn [bind] in H'.
  destruct (map_result_all (fun x => centre_then x o) (fun x s => forall p, transform s false p = transform o false (vsub p x)) (firstn n (product3 l0 l1 l2))) as (m & Em & Fm).
  { intros x _. apply centre_then_ok. }
  rewrite Em in H'. cbn [bind] in H'. injection H' as <-.
  exists (firstn n (product3 l0 l1 l2)).
  assert (Len : List.length m = List.length (firstn n (product3 l0 l1 l2))) by (clear - Fm; induction Fm; cbn; auto).
  destruct (cut_centers_sound _ _ _ _ _ _ Bx C0) as [I0 A0]. destruct (cut_centers_sound _ _ _ _ _ _ By C1) as [I1 A1].
  destruct (cut_centers_sound _ _ _ _ _ _ Bz C2) as [I2 A2].
  split; [clear - Fm; induction Fm; constructor; auto|]. split; [|split; [|split]].
  - intros x I. apply firstn_In in I. apply product3_In in I. destruct I as (Ix & Iy & Iz). auto.
  - apply pairwise_sub. apply (product3_pairwise (apart1 (vx b) (margin (mg0 im))) (apart1 (vy b) (margin (mg1 im))) (apart1 (vz b) (margin (mg2 im)))); auto.
  - intros k ->. destruct (Nat.ltb _ k) eqn:L; [discriminate|]. injection N as <-. apply Nat.ltb_ge in L. rewrite Len, firstn_length, product3_length. lia.
  - intros -> M0 M1 M2 n0 n1 n2 F0 F1 F2. injection N as <-. rewrite Len, firstn_length, product3_length.
    pose proof (cut_centers_max _ _ _ _ _ _ _ Bx M0 C0 F0). pose proof (cut_centers_max _ _ _ _ _ _ _ By M1 C1 F1). pose proof (cut_centers_max _ _ _ _ _ _ _ Bz M2 C2 F2).
    rewrite Nat.min_id. apply Nat.mul_le_mono; auto. apply Nat.mul_le_mono; auto.
Qed.

(* points of two different sky cuts come from places at least the margin apart *)
Lemma apart_points : forall b im x y p q, apart b im x y -> contained b x p -> contained b y q ->
  margin (mg0 im) <= Rabs (vx p - vx q) \/ margin (mg1 im) <= Rabs (vy p - vy q) \/ margin (mg2 im) <= Rabs (vz p - vz q).
Proof.
  intros b im x y p q A (X1 & X2 & X3) (Y1 & Y2 & Y3).
  assert (T : forall b m x y p q, apart1 b m x y -> Rabs (p - x) <= b / 2 -> Rabs (q - y) <= b / 2 -> m <= Rabs (p - q)).
  { clear. unfold apart1. intros b m x y p q A P Q.
    assert (Rabs (x - y) <= Rabs (p - q) + (Rabs (p - x) + Rabs (q - y))); [|lra].
    replace (x - y) with ((p - q) + ((- (p - x)) + (q - y))) by ring. eapply Rle_trans; [apply Rabs_triang|].
    apply Rplus_le_compat_l. eapply Rle_trans; [apply Rabs_triang|]. rewrite Rabs_Ropp. lra. }
  destruct A as [A|[A|A]]; [left|right; left|right; right]; eapply T; eauto.
Qed.

Lemma ifc_one : forall c dr rr de em im s, isometry_for_cutsky c dr rr de em im (Some 1%nat) = Ok (IsoOne s) ->
  forall b o, cutsky_to_box dr rr de = Ok (b, o) -> forall p, transform s false p = transform o false (vsub p (boxcenter c)).
Proof.
  intros c dr rr de em im s H b o E p. unfold isometry_for_cutsky in H. rewrite E in H. cbn [bind] in H.
  destruct (centre_then_ok (boxcenter c) o) as (s' & E' & T). rewrite E' in H. cbn [bind] in H. injection H as <-. apply T.
Qed.

(* ---------- when it succeeds ---------- *)
Lemma trunc_nonneg : forall q, 0 <= q -> (0 <= Rtrunc q)%Z.
Proof. intros q H. unfold Rtrunc. destruct (Rlt_dec q 0); [lra|]. rewrite <- (Rfloor_IZR 0). apply Rfloor_mono; auto. Qed.

Lemma cut_centers_none_ok : forall L center b, 0 < b -> 0 <= L -> exists l, cut_centers L center b None None = Ok l.
Proof.
  intros L center b B P. unfold cut_centers. cbn zeta. replace (L - 2 * 0 + 0) with L by ring. replace (b + 0) with b by ring.
  rewrite fdiv_ok by lra. cbn [bind].
  assert (Q : 0 <= L / b) by (apply Rmult_le_pos; auto; left; apply Rinv_0_lt_compat; auto).
  pose proof (trunc_nonneg _ Q) as N. apply IZR_le in N. set (n := Rtrunc (L / b)) in *.
  assert (U : IZR n <= L / b).
  { unfold n, Rtrunc. destruct (Rlt_dec (L / b) 0); [lra|]. apply Rfloor_spec. }
  assert (V : b * IZR n <= L).
  { apply (Rmult_le_compat_l b) in U; [|lra]. replace (b * (L / b)) with L in U by (field; lra). auto. }
  rewrite fdiv_ok by lra. cbn [bind]. set (t := (L - b * IZR n) / (IZR n + 1)).
  assert (T : 0 <= t) by (apply Rmult_le_pos; [lra|]; left; apply Rinv_0_lt_compat; lra).
  replace (Rltb t 0) with false by (symmetry; apply Rltb_false; lra). cbn [orb].
  destruct (Rltb 0 t) eqn:T1; cbn [orb].
  - apply Rltb_true in T1. rewrite fdiv_ok by nra. cbn [bind].
    assert (K : (L - b * IZR n) / (t * (IZR n - 1) + 2 * t) = 1).
    { replace (L - b * IZR n) with (t * (IZR n + 1)) by (unfold t; field; lra). field. nra. }
    rewrite K. replace (Rltb 1 1) with false by (symmetry; apply Rltb_false; lra). cbn [bind]. eauto.
  - cbn [bind]. eauto.
Qed.

Lemma cut_centers_some_ok : forall L center b em im, 0 < b -> 0 < em -> 0 <= im -> fits L b em im 1 ->
  exists l, cut_centers L center b (Some em) (Some im) = Ok l /\ l <> [].
Proof.
  intros L center b em im B E M F. unfold cut_centers. cbn zeta. rewrite fdiv_ok by lra. cbn [bind].
  set (q := (L - 2 * em + im) / (b + im)).
  assert (N : (1 <= Z.to_nat (Rtrunc q))%nat) by (apply fits_bound; auto; lra).
  set (n := Rtrunc q) in *. assert (Pn : (1 <= n)%Z) by lia. assert (T : IZR n <= q < IZR n + 1) by (apply trunc_le; auto; lia).
  apply IZR_le in Pn.
  replace (Rltb em 0) with false by (symmetry; apply Rltb_false; lra). replace (Rltb im 0) with false by (symmetry; apply Rltb_false; lra). cbn [orb].
  replace (Rltb 0 em) with true by (symmetry; apply Rltb_true; lra). cbn [orb].
  assert (D : 0 < im * (IZR n - 1) + 2 * em) by nra. rewrite fdiv_ok by lra. cbn [bind].
  assert (Q : q * (b + im) = L - 2 * em + im) by (unfold q; field; lra).
  assert (K : 1 <= (L - b * IZR n) / (im * (IZR n - 1) + 2 * em)).
  { apply (Rmult_le_reg_r (im * (IZR n - 1) + 2 * em)); auto. replace ((L - b * IZR n) / (im * (IZR n - 1) + 2 * em) * (im * (IZR n - 1) + 2 * em)) with (L - b * IZR n) by (field; lra). nra. }
  replace (Rltb ((L - b * IZR n) / (im * (IZR n - 1) + 2 * em)) 1) with false by (symmetry; apply Rltb_false; lra). cbn [bind].
  eexists; split; [reflexivity|]. intros X. apply (f_equal (@List.length R)) in X. rewrite map_length, seq_length in X. cbn in X. lia.
Qed.

(* ---------- counterexamples ---------- *)
Lemma Rtrunc_eq : forall q n, 0 <= q -> IZR n <= q < IZR n + 1 -> Rtrunc q = n.
Proof. intros q n Q H. unfold Rtrunc. destruct (Rlt_dec q 0); [lra|]. apply Rfloor_unique; auto. Qed.
Ltac rb := repeat (match goal with
  | |- context [Rltb ?a ?b] => first [replace (Rltb a b) with true by (symmetry; apply Rltb_true; lra) | replace (Rltb a b) with false by (symmetry; apply Rltb_false; lra)]
  end); cbn [orb andb].

Lemma cut_one_margin : cut_centers 10 0 3 (Some (1 / 2)) None = Err AssertionError.
Proof.
  unfold cut_centers. cbn zeta. rewrite fdiv_ok by lra. cbn [bind].
  replace (Rtrunc ((10 - 2 * (1 / 2) + 0) / (3 + 0))) with 3%Z by (symmetry; apply Rtrunc_eq; lra).
  rb. rewrite fdiv_ok by lra. cbn [bind]. rb. reflexivity.
Qed.
Lemma cut_zero_external : cut_centers 10 0 6 (Some 0) (Some 1) = Err ZeroDivision.
Proof.
  unfold cut_centers. cbn zeta. rewrite fdiv_ok by lra. cbn [bind].
  replace (Rtrunc ((10 - 2 * 0 + 1) / (6 + 1))) with 1%Z by (symmetry; apply Rtrunc_eq; lra).
  rb. unfold fdiv. destruct (Req_EM_T (1 * (1 - 1) + 2 * 0) 0); [reflexivity|exfalso; lra].
Qed.
