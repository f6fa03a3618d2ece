(** Theorems C16: exactly when several cuts of a box are returned. *)
Require Import Reals Lra Lia ZArith List Bool String Psatz.
From Verif Require Import Base Vec3 Isometry_Model Sky_Model Cutsky_Model Box_Model Box_Spec Box_Proof Box_Proof3 Box_Proof4 Box_Proof5 Box_Thm.
Import ListNotations.
Open Scope R_scope.

(** ** Specification *)
(** The largest number of cuts along an axis. *)
Definition most (L b e m : R) (n : nat) : Prop := fits L b e m n /\ forall k, fits L b e m k -> (k <= n)%nat.
(** Margins the code tries to reach once the number of cuts is set: one that is not given is taken equal to the other. *)
Definition reached (em im : option R) : R * R :=
  match em, im with Some e, Some m => (e, m) | Some e, None => (e, e) | None, Some m => (m, m) | None, None => (0, 0) end.
(** n cuts are placed along an axis: n is the largest number, counting a margin not given as 0; they still fit with the margins to be reached;
    and there is more than one of them if there is an internal margin and no external one. *)
Definition places (L b : R) (em im : option R) (n : nat) : Prop :=
  most L b (margin em) (margin im) n /\ fits L b (fst (reached em im)) (snd (reached em im)) n /\
  (fst (reached em im) = 0 -> 0 < snd (reached em im) -> n <> 1%nat).

(** ** Proofs *)
Lemma counted : forall L b e m, 0 < b -> 0 <= e -> 0 <= m -> fits L b e m 1 ->
  let k := Rtrunc ((L - 2 * e + m) / (b + m)) in (1 <= k)%Z /\ most L b e m (Z.to_nat k) /\ IZR k = INR (Z.to_nat k) /\ IZR k * (b + m) <= L - 2 * e + m.
Proof.
  intros L b e m B E M F k. unfold fits in F. cbn [INR] in F. set (q := (L - 2 * e + m) / (b + m)) in *. assert (D : 0 < b + m) by lra.
  assert (QD : q * (b + m) = L - 2 * e + m) by (unfold q; field; lra). assert (Q : 1 <= q) by (apply Rmult_le_reg_r with (b + m); lra).
  assert (KF : IZR k <= q < IZR k + 1). { unfold k, Rtrunc. destruct (Rlt_dec q 0); [lra|]. apply Rfloor_spec. }
  assert (K1 : (1 <= k)%Z) by (apply Z.lt_succ_r, lt_IZR; unfold Z.succ; rewrite plus_IZR; lra).
  assert (KI : IZR k = INR (Z.to_nat k)) by (rewrite INR_IZR_INZ, Z2Nat.id by lia; reflexivity).
  assert (KD : IZR k * (b + m) <= L - 2 * e + m) by nra. split; [exact K1|]. split; [|auto]. split; [unfold fits; rewrite <- KI; lra|].
  intros j J. apply fits_bound; [exact D|exact J].
Qed.
Lemma most_unique : forall L b e m n k, most L b e m n -> most L b e m k -> n = k.
Proof. intros L b e m n k (A & B) (C & D). apply B in C. apply D in A. lia. Qed.
Lemma axis_exact : forall L center b em im, 0 < b -> 0 <= margin em -> 0 <= margin im -> fits L b (margin em) (margin im) 1 ->
  (forall l, cut_centers L center b em im = Ok l -> places L b em im (List.length l)) /\
  (forall n, places L b em im n -> exists l, cut_centers L center b em im = Ok l /\ List.length l = n).
Proof.
  intros L center b em im B E M F. pose proof (counted L b _ _ B E M F) as C. cbn zeta in C. set (k := Rtrunc ((L - 2 * margin em + margin im) / (b + margin im))) in *. destruct C as (K1 & KM & KI & KD).
  assert (L0 : 0 <= L) by (unfold fits in F; cbn [INR] in F; lra).
  assert (LEN : forall l, cut_centers L center b em im = Ok l -> List.length l = Z.to_nat k).
  { intros l H. destruct (cut_centers_place _ _ _ _ _ _ B H) as (e & m & n & -> & _ & _ & _ & _ & _ & -> & _). rewrite place_length. reflexivity. }
  assert (X : (exists l, cut_centers L center b em im = Ok l) <-> fits L b (fst (reached em im)) (snd (reached em im)) (Z.to_nat k) /\ (fst (reached em im) = 0 -> 0 < snd (reached em im) -> Z.to_nat k <> 1%nat)).
  { assert (NN : em = None -> im = None -> fits L b 0 0 (Z.to_nat k)) by (intros -> ->; cbn [margin] in *; unfold fits; rewrite <- KI; lra).
    destruct em as [e|], im as [m|]; [| | |cbn [reached fst snd]; split; [intros _; split; [apply NN; reflexivity|lra]|intros _; apply cut_centers_none_ok; assumption] ].
    all: cbn [margin reached fst snd] in *.
    all: unfold cut_centers; cbn zeta; rewrite fdiv_ok by lra; cbn [bind]; fold k.
    all: match goal with |- context [if Rltb ?e 0 || Rltb ?m 0 then _ else _] =>
      assert (NE : orb (Rltb e 0) (Rltb m 0) = false) by (apply orb_false_iff; split; apply Rltb_false; lra); rewrite NE;
      assert (DE : 0 <= m * (IZR k - 1) + 2 * e) by (assert (1 <= IZR k) by (apply (IZR_le 1); lia); nra);
      destruct (Rltb 0 e || Rltb 0 m) eqn:G;
      [apply orb_true_iff in G; rewrite !Rltb_true in G|apply orb_false_iff in G; rewrite !Rltb_false in G] end.
    all: try (cbn [bind]; split; [intros _; split; [unfold fits; rewrite <- KI; nra|lra]|intros _; eexists; reflexivity]).
    all: match goal with |- context [fdiv ?A ?D] => unfold fdiv; destruct (Req_EM_T D 0) as [Z|NZ] end; cbn [bind].
    all: try (split; [intros (l & H); discriminate|]; intros (_ & H); exfalso; assert (K1' : 1 <= IZR k) by (apply (IZR_le 1); lia)).
    all: try match goal with Z : ?m * (IZR ?kk - 1) + 2 * ?e = 0, H : _ -> _ -> _ <> 1%nat |- False =>
      assert (Z0 : e = 0) by nra; assert (M0 : 0 < m) by lra; apply (H Z0 M0); assert (Z2 : m * (IZR kk - 1) = 0) by lra;
      apply Rmult_integral in Z2; destruct Z2 as [Z2|Z2]; [lra|]; assert (kk = 1%Z) by (apply eq_IZR; lra); lia end.
    all: match goal with |- context [Rltb ?q 1] => set (r := q) end.
    all: match goal with NZ : ?D <> 0 |- _ => assert (PD : 0 < D) by lra; assert (RD : r * D = L - b * IZR k) by (unfold r; field; lra); set (D' := D) in * end.
    all: destruct (Rltb r 1) eqn:R1; [apply Rltb_true in R1|apply Rltb_false in R1]; cbn [bind].
    all: try (split; [intros (l & H); discriminate|]; intros (H & _); exfalso; unfold fits in H; rewrite <- KI in H; subst D'; nra).
    all: (split; [intros _|intros _; eexists; reflexivity]); (split; [unfold fits; rewrite <- KI; subst D'; nra|]).
    all: intros Z0 M0 N1; assert (K2 : k = 1%Z) by lia; subst D'; rewrite K2 in PD; nra. }
  split.
  - intros l H. rewrite (LEN l H). split; [exact KM|]. apply X. eauto.
  - intros n (N1 & N2). assert (n = Z.to_nat k) by (eapply most_unique; eassumption). subst n. destruct (proj2 X N2) as (l & H). exists l. split; [exact H|apply LEN; exact H].
Qed.
Lemma centres_ok : forall o l, exists r, map_result (fun x => centre_then x o) l = Ok r.
Proof.
  intros o l. induction l as [|x l (r & IH)]; [cbn; eauto|]. cbn [map_result]. destruct (centre_then_ok x o) as (s & -> & _). cbn [bind]. rewrite IH. cbn [bind]. eauto.
Qed.
(** Several cuts are returned exactly when each axis places its number of cuts and the product of the numbers is enough. *)
Theorem C16_exactly : forall c dr rr de em im b o no, cutsky_to_box dr rr de = Ok (b, o) -> 0 < vx b -> 0 < vy b -> 0 < vz b ->
  0 <= margin (mg0 em) -> 0 <= margin (mg1 em) -> 0 <= margin (mg2 em) -> 0 <= margin (mg0 im) -> 0 <= margin (mg1 im) -> 0 <= margin (mg2 im) ->
  fits (vx (boxsize c)) (vx b) (margin (mg0 em)) (margin (mg0 im)) 1 -> fits (vy (boxsize c)) (vy b) (margin (mg1 em)) (margin (mg1 im)) 1 ->
  fits (vz (boxsize c)) (vz b) (margin (mg2 em)) (margin (mg2 im)) 1 -> no <> Some 1%nat ->
  ((exists l, isometry_for_cutsky c dr rr de em im no = Ok (IsoList l)) <->
   exists n0 n1 n2, places (vx (boxsize c)) (vx b) (mg0 em) (mg0 im) n0 /\ places (vy (boxsize c)) (vy b) (mg1 em) (mg1 im) n1 /\
     places (vz (boxsize c)) (vz b) (mg2 em) (mg2 im) n2 /\ forall n, no = Some n -> (n <= n0 * n1 * n2)%nat).
Proof.
  intros c dr rr de em im b o no E BX BY BZ E0 E1 E2 I0 I1 I2 F0 F1 F2 NO. unfold isometry_for_cutsky. rewrite E. cbn [bind].
  pose proof (axis_exact _ (vx (boxcenter c)) _ _ _ BX E0 I0 F0) as (X1 & X2). pose proof (axis_exact _ (vy (boxcenter c)) _ _ _ BY E1 I1 F1) as (Y1 & Y2). pose proof (axis_exact _ (vz (boxcenter c)) _ _ _ BZ E2 I2 F2) as (Z1 & Z2).
  assert (T : forall A (x y : A), match no with Some 1%nat => x | _ => y end = y) by (intros; destruct no as [[|[|n]]|]; try reflexivity; congruence). rewrite T.
  split.
  - intros (l & H).
    destruct (cut_centers (vx (boxsize c)) _ _ _ _) as [l0|] eqn:C0; [|discriminate]. cbn [bind] in H. destruct (cut_centers (vy (boxsize c)) _ _ _ _) as [l1|] eqn:C1; [|discriminate]. cbn [bind] in H.
    destruct (cut_centers (vz (boxsize c)) _ _ _ _) as [l2|] eqn:C2; [|discriminate]. cbn [bind] in H.
    exists (List.length l0), (List.length l1), (List.length l2). split; [auto|]. split; [auto|]. split; [auto|]. intros n ->. destruct (Nat.ltb _ n) eqn:LT; [discriminate|]. apply Nat.ltb_ge in LT. exact LT.
  - intros (n0 & n1 & n2 & P0 & P1 & P2 & N). destruct (X2 n0 P0) as (l0 & -> & L0). destruct (Y2 n1 P1) as (l1 & -> & L1). destruct (Z2 n2 P2) as (l2 & -> & L2). cbn [bind]. rewrite L0, L1, L2.
    assert (NB : exists n, match no with Some n => if Nat.ltb (n0 * n1 * n2) n then Err ValueError else Ok n | None => Ok (n0 * n1 * n2)%nat end = Ok n).
    { destruct no as [n|]; [|eauto]. specialize (N n eq_refl). destruct (Nat.ltb_spec (n0 * n1 * n2) n); [lia|eauto]. }
    destruct NB as (n & ->). cbn [bind]. destruct (centres_ok o (firstn n (product3 l0 l1 l2))) as (r & ->). cbn [bind]. eauto.
Qed.
Print Assumptions C16_exactly.
(** A case: three cuts of side 3 fit in a side of 10 with an external margin of 1/4 and the internal one left to the code, not with 1/2. *)
Example C16_exact_case : places 10 3 (Some (1 / 4)) None 3 /\ forall n, ~ places 10 3 (Some (1 / 2)) None n.
Proof.
  assert (Mo : forall e, 0 <= e <= 1 / 2 -> most 10 3 e 0 3).
  { intros e E. split; [unfold fits; cbn [INR]; lra|]. intros k K. unfold fits in K. apply Nat.lt_succ_r, INR_lt. cbn [INR]. lra. }
  split.
  - split; [apply Mo; cbn; lra|]. cbn [reached fst snd]. split; [unfold fits; cbn [INR]; lra|lra].
  - intros n (A & B & _). pose proof (most_unique _ _ _ _ _ _ A (Mo (1 / 2) ltac:(lra))) as ->. unfold fits in B. cbn [reached fst snd INR] in B. lra.
Qed.
