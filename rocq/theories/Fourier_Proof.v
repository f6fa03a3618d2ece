(** Discrete Fourier transforms on a mesh: sums of complex numbers, orthogonality of plane waves. *)
Require Import Reals ZArith List Bool Lra Lia Permutation.
From Verif Require Import Base Vec3 Density_Proof Mock_Model Mock_Spec.
Import ListNotations.
Open Scope R_scope.

Definition C0 : cplx := Cx 0 0. Definition C1 : cplx := Cx 1 0.
Definition copp (a : cplx) : cplx := Cx (- re a) (- im a).
Definition csub (a b : cplx) : cplx := Cx (re a - re b) (im a - im b).
Definition conj (a : cplx) : cplx := Cx (re a) (- im a).
Lemma cplx_eq : forall a b, re a = re b -> im a = im b -> a = b.
Proof. intros [] []; cbn; congruence. Qed.
Lemma cplx_ring : ring_theory C0 C1 cadd cmul csub copp (@eq cplx).
Proof. constructor; intros; apply cplx_eq; unfold cadd, cmul, csub, copp, C0, C1; cbn; ring. Qed.
Add Ring cplx_ring_inst : cplx_ring.
Definition creal (t : R) : cplx := Cx t 0.
Lemma cscale_mul : forall t a, cscale t a = cmul (creal t) a.
Proof. intros; apply cplx_eq; cbn; ring. Qed.
Lemma creal_mul : forall a b, cmul (creal a) (creal b) = creal (a * b).
Proof. intros; apply cplx_eq; cbn; ring. Qed.
Lemma expi_add : forall a b, expi (a + b) = cmul (expi a) (expi b).
Proof. intros; apply cplx_eq; cbn; [rewrite cos_plus|rewrite sin_plus]; ring. Qed.
Lemma expi_0 : expi 0 = C1. Proof. apply cplx_eq; cbn; [apply cos_0|apply sin_0]. Qed.
Lemma expi_period : forall t k, expi (t + 2 * PI * IZR k) = expi t.
Proof.
  assert (N : forall t (k : nat), expi (t + 2 * PI * INR k) = expi t).
  { intros t k. unfold expi. replace (t + 2 * PI * INR k) with (t + 2 * INR k * PI) by ring. rewrite cos_period, sin_period. auto. }
  intros t k. destruct (Z_le_gt_dec 0 k).
  - rewrite <- (Z2Nat.id k) by auto. rewrite <- INR_IZR_INZ. apply N.
  - rewrite <- (N (t + 2 * PI * IZR k) (Z.to_nat (- k))). f_equal. rewrite INR_IZR_INZ, Z2Nat.id by lia. rewrite opp_IZR. ring.
Qed.
Lemma expi_conj : forall t, expi (- t) = conj (expi t).
Proof. intros; apply cplx_eq; cbn; [apply cos_neg|apply sin_neg]. Qed.
Lemma cos_one : forall t, cos t = 1 -> exists k : BinNums.Z, t = 2 * PI * IZR k.
Proof.
  intros t H. replace t with (2 * (t / 2)) in H by field. rewrite cos_2a_sin in H. assert (S : sin (t / 2) = 0) by nra.
  apply sin_eq_0_0 in S. destruct S as [k S]. exists k. lra.
Qed.
Lemma cmul_zero : forall a b, cmul a b = C0 -> b <> C0 -> a = C0.
Proof.
  intros [a1 a2] [b1 b2] H N. unfold cmul, C0 in *. cbn in *. injection H as H1 H2.
  assert (S : b1 * b1 + b2 * b2 <> 0). { intro E. apply N. assert (b1 = 0) by nra. assert (b2 = 0) by nra. subst; auto. }
  assert (A : a1 * (b1 * b1 + b2 * b2) = 0). { replace (a1 * (b1 * b1 + b2 * b2)) with ((a1 * b1 - a2 * b2) * b1 + (a1 * b2 + a2 * b1) * b2) by ring. rewrite H1, H2. ring. }
  assert (B : a2 * (b1 * b1 + b2 * b2) = 0). { replace (a2 * (b1 * b1 + b2 * b2)) with ((a1 * b2 + a2 * b1) * b1 - (a1 * b1 - a2 * b2) * b2) by ring. rewrite H1, H2. ring. }
  apply Rmult_integral in A. apply Rmult_integral in B. apply cplx_eq; cbn; [destruct A|destruct B]; auto; contradiction.
Qed.

(** Sums. *)
Definition csum (l : list cplx) : cplx := fold_right cadd C0 l.
Lemma csum_cons : forall a l, csum (a :: l) = cadd a (csum l). Proof. auto. Qed.
Lemma csum_app : forall a b, csum (a ++ b) = cadd (csum a) (csum b).
Proof. induction a as [|x a IH]; intro b; cbn [app]. - cbn. apply cplx_eq; cbn; ring. - rewrite !csum_cons, IH. ring. Qed.
Lemma csum_ext : forall {A} (f g : A -> cplx) l, (forall x, In x l -> f x = g x) -> csum (map f l) = csum (map g l).
Proof. intros A f g l H. f_equal. apply map_ext_in. auto. Qed.
Lemma csum_mul : forall {A} c (f : A -> cplx) l, csum (map (fun x => cmul c (f x)) l) = cmul c (csum (map f l)).
Proof. induction l as [|x l IH]; cbn [map]; [cbn; apply cplx_eq; cbn; ring|]. rewrite !csum_cons, IH. ring. Qed.
Lemma csum_mul_r : forall {A} c (f : A -> cplx) l, csum (map (fun x => cmul (f x) c) l) = cmul (csum (map f l)) c.
Proof. intros. rewrite (csum_ext _ (fun x => cmul c (f x))) by (intros; ring). rewrite csum_mul. ring. Qed.
Lemma csum_add : forall {A} (f g : A -> cplx) l, csum (map (fun x => cadd (f x) (g x)) l) = cadd (csum (map f l)) (csum (map g l)).
Proof. induction l as [|x l IH]; cbn [map]; [cbn; apply cplx_eq; cbn; ring|]. rewrite !csum_cons, IH. ring. Qed.
Lemma csum_zero : forall {A} (f : A -> cplx) l, (forall x, In x l -> f x = C0) -> csum (map f l) = C0.
Proof. induction l as [|x l IH]; intro H; cbn [map]; auto. rewrite csum_cons, IH by (intros; apply H; right; auto). rewrite (H x (or_introl eq_refl)). ring. Qed.
Lemma csum_swap : forall {A B} (f : A -> B -> cplx) la lb, csum (map (fun a => csum (map (f a) lb)) la) = csum (map (fun b => csum (map (fun a => f a b) la)) lb).
Proof.
  induction la as [|a la IH]; intro lb; cbn [map].
  - change (csum []) with C0. symmetry. apply csum_zero. auto.
  - rewrite csum_cons, IH. rewrite <- csum_add. apply csum_ext. auto.
Qed.
Lemma csum_re : forall {A} (f : A -> cplx) l, re (csum (map f l)) = Rsum (map (fun x => re (f x)) l).
Proof. induction l as [|x l IH]; cbn [map]; auto. rewrite csum_cons. unfold Rsum in *. cbn [fold_right]. rewrite <- IH. auto. Qed.
Lemma csum_im : forall {A} (f : A -> cplx) l, im (csum (map f l)) = Rsum (map (fun x => im (f x)) l).
Proof. induction l as [|x l IH]; cbn [map]; auto. rewrite csum_cons. unfold Rsum in *. cbn [fold_right]. rewrite <- IH. auto. Qed.
Lemma csum_const : forall {A} c (l : list A), csum (map (fun _ => c) l) = cmul (creal (INR (length l))) c.
Proof. induction l as [|x l IH]; [cbn; apply cplx_eq; cbn; ring|]. cbn [map]. rewrite csum_cons, IH. cbn [length]. rewrite S_INR. apply cplx_eq; cbn; ring. Qed.
Lemma csum_flat_map : forall {A B} (g : A -> list B) (f : B -> cplx) l, csum (map f (flat_map g l)) = csum (map (fun a => csum (map f (g a))) l).
Proof. induction l as [|x l IH]; cbn [flat_map map]; auto. rewrite map_app, csum_app, csum_cons, IH. auto. Qed.
Lemma csum_single : forall {A} (f : A -> cplx) l a, NoDup l -> In a l -> (forall x, In x l -> x <> a -> f x = C0) -> csum (map f l) = f a.
Proof.
  induction l as [|x l IH]; intros a N I H; [contradiction|]. inversion N as [|? ? N1 N2]; subst. cbn [map]. rewrite csum_cons. destruct I as [->|I].
  - rewrite csum_zero; [ring|]. intros y Y. apply H; [right; auto|]. intros ->. contradiction.
  - rewrite (IH a N2 I) by (intros y Y Z; apply H; [right; auto|auto]). rewrite (H x (or_introl eq_refl)) by (intros ->; contradiction). ring.
Qed.

(** Cells. *)
Lemma cells_In : forall n x, In x (cells n) <-> within n x.
Proof.
  intros n [a b c]. unfold cells, within. cbn [ix iy iz]. rewrite in_flat_map. split.
  - intros [a' [A H]]. apply in_flat_map in H. destruct H as [b' [B H]]. apply in_map_iff in H. destruct H as [c' [E C]]. injection E as -> -> ->.
    apply in_seq in A. apply in_seq in B. apply in_seq in C. lia.
  - intros (A & B & C). exists a. split; [apply in_seq; lia|]. apply in_flat_map. exists b. split; [apply in_seq; lia|]. apply in_map_iff. exists c. split; auto. apply in_seq; lia.
Qed.
Lemma NoDup_app_intro : forall {A} (a b : list A), NoDup a -> NoDup b -> (forall x, In x a -> In x b -> False) -> NoDup (a ++ b).
Proof.
  induction a as [|x a IH]; intros b HA HB D; auto. cbn. inversion HA; subst. constructor.
  - intro I. apply in_app_or in I. destruct I; [auto|apply (D x); [left|]; auto].
  - apply IH; auto. intros y Y. apply D. right; auto.
Qed.
Lemma nodup_flat_map : forall {A B} (g : A -> list B) l, NoDup l -> (forall a, In a l -> NoDup (g a)) -> (forall a b x, In a l -> In b l -> In x (g a) -> In x (g b) -> a = b) -> NoDup (flat_map g l).
Proof.
  induction l as [|a l IH]; intros N G D; [constructor|]. cbn. inversion N as [|? ? N1 N2]; subst. apply NoDup_app_intro.
  - apply G; left; auto.
  - apply IH; auto. + intros; apply G; right; auto. + intros b c x Hb Hc. apply D; right; auto.
  - intros x X Y. apply in_flat_map in Y. destruct Y as [b [IB Y]]. assert (a = b) by (apply (D a b x); [left|right| |]; auto). subst. contradiction.
Qed.
Lemma cells_nodup : forall n, NoDup (cells n).
Proof.
  intro n. unfold cells. apply nodup_flat_map; [apply seq_NoDup| |].
  - intros a _. apply nodup_flat_map; [apply seq_NoDup| |].
    + intros b _. apply FinFun.Injective_map_NoDup; [|apply seq_NoDup]. intros x y E. congruence.
    + intros b b' x _ _ X Y. apply in_map_iff in X. apply in_map_iff in Y. destruct X as [? [<- _]]. destruct Y as [? [E _]]. congruence.
  - intros a a' x _ _ X Y. apply in_flat_map in X. apply in_flat_map in Y. destruct X as [? [_ X]]. destruct Y as [? [_ Y]]. apply in_map_iff in X. apply in_map_iff in Y. destruct X as [? [<- _]]. destruct Y as [? [E _]]. congruence.
Qed.
Lemma csum_cells : forall n (f g h : nat -> cplx), csum (map (fun x => cmul (f (ix x)) (cmul (g (iy x)) (h (iz x)))) (cells n)) =
  cmul (csum (map f (seq 0 (ix n)))) (cmul (csum (map g (seq 0 (iy n)))) (csum (map h (seq 0 (iz n))))).
Proof.
  intros n f g h. unfold cells. rewrite csum_flat_map. rewrite <- csum_mul_r. apply csum_ext. intros a _. rewrite csum_flat_map.
  rewrite <- csum_mul_r, <- csum_mul. apply csum_ext. intros b _. rewrite map_map. cbn [ix iy iz]. rewrite !csum_mul. ring.
Qed.

(** Plane waves. *)
Definition turns (m : BinNums.Z) (n x : nat) : R := 2 * PI * (IZR m * INR x / INR n).
Lemma geometric : forall t n, cmul (csum (map (fun x => expi (t * INR x)) (seq 0 n))) (csub (expi t) C1) = csub (expi (t * INR n)) C1.
Proof.
  intros t n. induction n as [|n IH].
  - cbn [seq map]. rewrite Rmult_0_r, expi_0. change (csum []) with C0. ring.
  - rewrite seq_S, map_app, csum_app. cbn [map]. rewrite csum_cons. change (csum []) with C0. cbn [Nat.add].
    rewrite S_INR. replace (t * (INR n + 1)) with (t * INR n + t) by ring. rewrite expi_add.
    replace (cmul (cadd (csum (map (fun x => expi (t * INR x)) (seq 0 n))) (cadd (expi (t * INR n)) C0)) (csub (expi t) C1))
      with (cadd (cmul (csum (map (fun x => expi (t * INR x)) (seq 0 n))) (csub (expi t) C1)) (cmul (expi (t * INR n)) (csub (expi t) C1))) by ring.
    rewrite IH. ring.
Qed.
Lemma orthogonal1 : forall n m, (0 < n)%nat -> csum (map (fun x => expi (turns m n x)) (seq 0 n)) = if (m mod Z.of_nat n =? 0)%Z then creal (INR n) else C0.
Proof.
  intros n m N. assert (NR : 0 < INR n) by (apply lt_0_INR; auto). destruct (m mod Z.of_nat n =? 0)%Z eqn:E.
  - apply Z.eqb_eq in E. apply Z.mod_divide in E; [|lia]. destruct E as [q ->]. rewrite (csum_ext _ (fun _ => C1)).
    + rewrite csum_const, seq_length. apply cplx_eq; cbn; ring.
    + intros x _. unfold turns. rewrite mult_IZR, <- INR_IZR_INZ. replace (2 * PI * (IZR q * INR n * INR x / INR n)) with (0 + 2 * PI * IZR (q * Z.of_nat x)).
      * rewrite expi_period. apply expi_0.
      * rewrite mult_IZR, <- INR_IZR_INZ. field. lra.
  - apply Z.eqb_neq in E. set (t := 2 * PI * (IZR m / INR n)). rewrite (csum_ext _ (fun x => expi (t * INR x))).
    2:{ intros x _. unfold turns, t. f_equal. field. lra. }
    apply cmul_zero with (csub (expi t) C1).
    + rewrite geometric. replace (t * INR n) with (0 + 2 * PI * IZR m) by (unfold t; field; lra). rewrite expi_period, expi_0. ring.
    + intro H. assert (C : cos t = 1). { apply (f_equal re) in H. cbn in H. lra. }
      apply cos_one in C. destruct C as [k C]. apply E. unfold t in C. assert (Q : IZR m = IZR (k * Z.of_nat n)).
      { rewrite mult_IZR, <- INR_IZR_INZ. pose proof PI_RGT_0. apply Rmult_eq_reg_l with (2 * PI); [|lra]. replace (2 * PI * IZR m) with (2 * PI * (IZR m / INR n) * INR n) by (field; lra). rewrite C. ring. }
      apply eq_IZR in Q. subst m. apply Z_mod_mult.
Qed.
Definition turns3 (m1 m2 m3 : BinNums.Z) (n x : idx) : R := turns m1 (ix n) (ix x) + turns m2 (iy n) (iy x) + turns m3 (iz n) (iz x).
Lemma orthogonal3 : forall n m1 m2 m3, nonempty n -> csum (map (fun x => expi (turns3 m1 m2 m3 n x)) (cells n)) =
  if ((m1 mod Z.of_nat (ix n) =? 0) && (m2 mod Z.of_nat (iy n) =? 0) && (m3 mod Z.of_nat (iz n) =? 0))%Z then creal (size n) else C0.
Proof.
  intros n m1 m2 m3 (N1 & N2 & N3). unfold turns3. rewrite (csum_ext _ (fun x => cmul (expi (turns m1 (ix n) (ix x))) (cmul (expi (turns m2 (iy n) (iy x))) (expi (turns m3 (iz n) (iz x)))))).
  2:{ intros x _. rewrite !expi_add. ring. }
  rewrite (csum_cells n (fun x => expi (turns m1 (ix n) x)) (fun x => expi (turns m2 (iy n) x)) (fun x => expi (turns m3 (iz n) x))). rewrite !orthogonal1 by auto.
  destruct (_ =? 0)%Z; cbn [andb]; [|ring]. destruct (_ =? 0)%Z; cbn [andb]; [|ring]. destruct (_ =? 0)%Z; [|ring]. rewrite !creal_mul. unfold size. f_equal. ring.
Qed.
Lemma phase_turns : forall n k x, phase n k x = turns3 (Z.of_nat (ix k)) (Z.of_nat (iy k)) (Z.of_nat (iz k)) n x.
Proof. intros. unfold phase, turns3, turns. rewrite <- !INR_IZR_INZ. ring. Qed.
Lemma c2r_csum : forall n c x, c2r n c x = re (csum (map (fun k => cmul (c k) (expi (phase n k x))) (cells n))).
Proof. intros. rewrite csum_re. auto. Qed.
Lemma r2c_csum : forall n f k, r2c n f k = cmul (creal (/ size n)) (csum (map (fun x => cmul (creal (f x)) (expi (- phase n k x))) (cells n))).
Proof.
  intros. apply cplx_eq; cbn [r2c re im cmul creal]; rewrite csum_re, csum_im; rewrite !(map_ext (fun x => re (cmul (creal (f x)) (expi (- phase n k x)))) (fun x => f x * cos (phase n k x))),
    !(map_ext (fun x => im (cmul (creal (f x)) (expi (- phase n k x)))) (fun x => f x * - sin (phase n k x))); try ring; intros x; cbn; rewrite ?cos_neg, ?sin_neg; ring.
Qed.
Lemma size_pos : forall n, nonempty n -> 0 < size n.
Proof. intros n (A & B & C). unfold size. apply lt_0_INR in A, B, C. apply Rmult_lt_0_compat; auto. apply Rmult_lt_0_compat; auto. Qed.
Lemma cells_length : forall n, INR (length (cells n)) = size n.
Proof.
  intro n. pose proof (csum_cells n (fun _ => C1) (fun _ => C1) (fun _ => C1)) as H. rewrite !csum_const in H.
  rewrite !seq_length in H. apply (f_equal re) in H. cbn in H. unfold size. lra.
Qed.
Lemma small_mod : forall i n, (i < n)%nat -> (Z.of_nat i mod Z.of_nat n =? 0)%Z = Nat.eqb i 0.
Proof. intros i n H. rewrite Z.mod_small by lia. destruct (Nat.eqb_spec i 0); [subst; auto|]. apply Z.eqb_neq. lia. Qed.
(** The sum over the mesh of the transform is the zero mode. *)
Lemma sum_c2r : forall n c, nonempty n -> Rsum (map (c2r n c) (cells n)) = size n * re (c (I 0 0 0)).
Proof.
  intros n c N. assert (E : Rsum (map (c2r n c) (cells n)) = re (csum (map (fun x => csum (map (fun k => cmul (c k) (expi (phase n k x))) (cells n))) (cells n)))).
  { rewrite csum_re. f_equal. apply map_ext. intro x. apply c2r_csum. }
  rewrite E, csum_swap. rewrite (csum_single _ _ (I 0 0 0)); [|apply cells_nodup|apply cells_In; destruct N as (A & B & C); repeat split; auto|].
  - rewrite csum_mul. rewrite (csum_ext _ (fun _ => C1)). + rewrite csum_const, cells_length. cbn. ring.
    + intros x _. unfold phase. cbn [ix iy iz INR]. replace (2 * PI * _) with 0 by (unfold Rdiv; ring). apply expi_0.
  - intros k K NE. rewrite csum_mul. rewrite (csum_ext _ (fun x => expi (turns3 (Z.of_nat (ix k)) (Z.of_nat (iy k)) (Z.of_nat (iz k)) n x))) by (intros; f_equal; apply phase_turns).
    rewrite orthogonal3 by auto. apply cells_In in K. destruct K as (K1 & K2 & K3). rewrite !small_mod by auto.
    destruct (Nat.eqb_spec (ix k) 0); destruct (Nat.eqb_spec (iy k) 0); destruct (Nat.eqb_spec (iz k) 0); cbn [andb]; try ring. exfalso. apply NE. destruct k; cbn in *; subst; auto.
Qed.
