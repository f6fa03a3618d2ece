(** Proofs: stored numbers that are not exact. *)
Require Import Reals Lra Lia ZArith List Bool SpecFloat.
From Verif Require Import Base Vec3 Remap_Model Remap_Spec Remap_Proof Remap_Proof2 Remap_Proof3 Wobble_Model Wobble_Spec Wobble_Proof Wobble_Proof2 Wobble_Proof3 Wobble_Proof4 Round_Spec.
Import ListNotations.
Open Scope R_scope.

Lemma scalar_close : forall delta u' u p b, near delta u' u -> within b p -> 0 <= delta -> Rabs (scalar u' p - scalar u p) <= 3 * b * delta.
Proof.
  intros delta u' u p b [X [Y Z]] [A [B C]] D. unfold scalar.
  assert (P : forall a e, Rabs a <= delta -> Rabs e <= b -> Rabs (a * e) <= b * delta).
  { intros a e Ha He. rewrite Rabs_mult, (Rmult_comm b). apply Rmult_le_compat; try apply Rabs_pos; assumption. }
  pose proof (P _ _ X A) as P1. pose proof (P _ _ Y B) as P2. pose proof (P _ _ Z C) as P3.
  replace (gx u' * gx p + gy u' * gy p + gz u' * gz p - (gx u * gx p + gy u * gy p + gz u * gz p))
    with ((gx u' - gx u) * gx p + (gy u' - gy u) * gy p + (gz u' - gz u) * gz p) by ring.
  apply Rabs_le. apply abs_both in P1, P2, P3. lra.
Qed.
Lemma height_close : forall delta f' f p b, close_plane delta f' f -> within b p -> 0 <= delta -> Rabs (height f' p - height f p) <= (3 * b + 1) * delta.
Proof.
  intros delta f' f p b [N D] W H. unfold height. pose proof (scalar_close _ _ _ _ _ N W H) as S.
  apply Rabs_le. apply abs_both in S, D. lra.
Qed.
Lemma in_close : forall delta l' l, Forall2 (close_plane delta) l' l -> forall f', In f' l' -> exists f, In f l /\ close_plane delta f' f.
Proof. intros delta l' l H. induction H; intros f' []; subst; [eexists; split; [now left|assumption]|]. destruct (IHForall2 f' H1) as [f [I C]]. exists f. split; [now right|exact C]. Qed.
Lemma in_close' : forall delta l' l, Forall2 (close_plane delta) l' l -> forall f, In f l -> exists f', In f' l' /\ close_plane delta f' f.
Proof. intros delta l' l H. induction H; intros f []; subst; [eexists; split; [now left|assumption]|]. destruct (IHForall2 f H1) as [f' [I C]]. exists f'. split; [now right|exact C]. Qed.
Lemma walk_close : forall delta tau b l' l, Forall2 (close_cell delta) l' l -> 0 <= delta -> forall p q t,
  walk (tau + (3 * b + 1) * delta) b l p q t -> walk tau b l' p q t.
Proof.
  intros delta tau b l' l H D. induction H as [|k' k l' l [Ki Kf] H IH]; intros p q t W.
  - inversion W; subst. now constructor.
  - inversion W as [|c0 l0 p0 q0 t0 B F W' | c0 l0 p0 q0 t0 B F W']; subst.
    + apply walk_in with (t := t0); [exact B| |rewrite Ki; apply IH; exact W'].
      intros f' If. destruct (in_close _ _ _ Kf f' If) as [f [I C]]. specialize (F f I). pose proof (height_close _ _ _ _ _ C B D) as E. apply abs_both in E. lra.
    + apply walk_out; [exact B| |apply IH; exact W'].
      destruct F as [f [I F]]. destruct (in_close' _ _ _ Kf f I) as [f' [I' C]]. exists f'. split; [exact I'|]. pose proof (height_close _ _ _ _ _ C B D) as E. apply abs_both in E. lra.
Qed.
Lemma walk_end_within : forall tau b l p q t, walk tau b l p q t -> within b q.
Proof. intros tau b l p q t W. induction W; assumption. Qed.
Lemma image_close : forall delta c' c q b n s, close delta c' c -> within b q -> 0 <= delta ->
  (forall u, In u [gu_n1 c; gu_n2 c; gu_n3 c] -> within n u) -> within s (gu_resize c') -> 0 <= n -> 0 <= b ->
  near (3 * b * (s + n) * delta) (image c' q) (image c q).
Proof.
  intros delta c' c q b n s (_ & N1 & N2 & N3 & [X [Y Z]] & _) W D U [Sx [Sy Sz]] Hn Hb.
  assert (C : forall u v, scalar u v = scalar v u) by (intros; unfold scalar; ring).
  assert (T : forall u' u r' r, near delta u' u -> within n u -> Rabs (r' - r) <= delta -> Rabs r' <= s ->
    Rabs (scalar q u' * r' - scalar q u * r) <= 3 * b * (s + n) * delta).
  { intros u' u r' r Nu Wu Hr Hs. rewrite !(C q).
    pose proof (scalar_close _ _ _ _ _ Nu W D) as E1.
    assert (E2 : Rabs (scalar u q) <= 3 * (n * b)).
    { destruct Wu as [A1 [A2 A3]]. destruct W as [B1 [B2 B3]]. unfold scalar. pose proof (abs_prod _ _ _ _ A1 B1) as P1. pose proof (abs_prod _ _ _ _ A2 B2) as P2. pose proof (abs_prod _ _ _ _ A3 B3) as P3.
      apply Rabs_le. apply abs_both in P1, P2, P3. lra. }
    replace (scalar u' q * r' - scalar u q * r) with ((scalar u' q - scalar u q) * r' + scalar u q * (r' - r)) by ring.
    eapply Rle_trans; [apply Rabs_triang|]. pose proof (abs_prod _ _ _ _ E1 Hs) as Q1. pose proof (abs_prod _ _ _ _ E2 Hr) as Q2. lra. }
  split; [|split]; cbn [image gx gy gz]; apply T; try assumption; apply U; cbn; auto.
Qed.

(** Positions of the box are found in double precision, if far from faces, and if the cuboid stored is near that of real numbers. *)
Lemma stored_found : forall u1 u2 u3 size (c : gcuboid R) delta c' cf f x n d s b q t, unimodular u1 u2 u3 -> positive (up size) -> gcuboid_new exact u1 u2 u3 size = Ok c ->
  in_box (up size) (up x) -> 0 <= delta -> close delta c' c -> cuboid_holds 200 cf c' -> vec_holds 200 f x -> (length (gu_cells c) <= 500)%nat ->
  stored n d s c -> stored n d s c' -> 0 <= d -> 1 <= b <= powerRZ 2 53 ->
  let m := margin unit_roundoff (powerRZ 2 (-1075)) (length (gu_cells c)) n d b in
  walk (m + (3 * b + 1) * delta) b (gu_cells c) (fraction c x) q t ->
  exists z y w, gtransform1 exact c x = Ok w /\ gtransform1 binary64 cf f = Ok z /\ values z (vec_of_gvec y) /\
    near (s * m + powerRZ 2 (-1075) + 3 * b * (s + n) * delta) y w.
Proof.
  intros u1 u2 u3 size c delta c' cf f x n d s b q t U P E B D C Hc Hx Hl Hs Hs' Hd Hb m W.
  assert (Hn : 0 <= n) by (destruct Hs as (_ & (H & _) & _); eapply Rle_trans; [apply Rabs_pos | exact H]).
  destruct (double_fine (length (gu_cells c)) Hl) as (F1 & F2 & _).
  assert (M0 : 0 <= m) by (apply margin_pos; lra).
  assert (M1 : 0 <= m + (3 * b + 1) * delta) by (assert (0 <= (3 * b + 1) * delta) by (apply Rmult_le_pos; lra); lra).
  pose proof (transform_exact _ _ _ _ _ _ M1 W) as T.
  assert (t = true).
  { destruct (same_program u1 u2 u3 size U P) as (c1 & c2 & E1 & E' & S). rewrite E in E1. injection E1 as <-.
    destruct (round_trip u1 u2 u3 (up size) U P) as (c3 & E2 & R). rewrite E' in E2. injection E2 as <-.
    destruct (R (up x) B) as (y0 & x0 & Y & _). rewrite S, T in Y. destruct t; [reflexivity|discriminate]. }
  subst t. destruct (new_up u1 u2 u3 size U) as (c1 & c2 & E1 & _ & _ & Bs). rewrite E in E1. injection E1 as <-.
  pose proof C as (Cb & _ & _ & _ & _ & Cc).
  assert (L : length (gu_cells c') = length (gu_cells c)) by (clear - Cc; induction Cc; cbn; [reflexivity|now f_equal]).
  assert (Fr : fraction c' x = fraction c x) by (unfold fraction; rewrite Cb; reflexivity).
  assert (Pz : gx (gu_boxsize c') <> 0 /\ gy (gu_boxsize c') <> 0 /\ gz (gu_boxsize c') <> 0).
  { rewrite Cb. replace (gu_boxsize c) with size. destruct P as (? & ? & ?). cbn in *. repeat split; lra. }
  destruct Pz as (Px & Py & Pz).
  pose proof (walk_close _ _ _ _ _ Cc D _ _ _ W) as W'. unfold m in W'. rewrite <- L, <- Fr in W'.
  pose proof (double_far cf c' f x n d s b q true Hc Hx ltac:(lia) (proj2 Hb) Px Py Pz Hs' Hd (proj1 Hb) W') as (z & y & Ez & V & N).
  rewrite L in N. exists z, y, (image c q). split; [exact T|]. split; [exact Ez|]. split; [exact V|].
  destruct Hs as (_ & S1 & S2 & S3 & _). destruct Hs' as (_ & _ & _ & _ & S4).
  pose proof (image_close delta c' c q b n s C (walk_end_within _ _ _ _ _ _ W) D ltac:(intros u [<-|[<-|[<-|[]]]]; assumption) S4 Hn ltac:(lra)) as I.
  destruct N as (N1 & N2 & N3). destruct I as (I1 & I2 & I3). split; [|split]; eapply abs_step; eassumption.
Qed.
