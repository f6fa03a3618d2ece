Require Import Reals Lra Lia ZArith List Bool String Sorted Permutation.
From Verif Require Import Base Vec3 Isometry_Model Isometry_Spec Isometry_Proof Sky_Model Sky_Spec Sky_Proof
  Cutsky_Model Cutsky_Spec Cutsky_Proof Box_Model Box_Spec Box_Proof Box_Proof2 Box_Proof3.
Import ListNotations.
Open Scope R_scope.

(* ---------- pad ---------- *)
Lemma select_len : forall {A} mask (l l' : list A), select mask l = Ok l' -> List.length mask = List.length l.
Proof.
  induction mask as [|b m IH]; intros [|a l] l' H; cbn in H; try discriminate; auto.
  destruct (select m l) eqn:E; [|discriminate]. cbn. f_equal. eapply IH; eauto.
Qed.
Lemma select_col_inv : forall mask x x', select_col mask x = Ok x' -> x' = pick_col (trues mask) x.
Proof.
  intros mask [l|l] x' H; cbn in H; (destruct (select mask l) as [l'|] eqn:E; [|discriminate]); cbn in H; injection H as <-; cbn;
    pose proof (select_len _ _ _ E); rewrite select_pick in E by auto; injection E as <-; reflexivity.
Qed.

Definition padded (c : pcat) (rows : list (nat * vec)) (d : data) : Prop :=
  map fst d = map fst (pc_data c) /\
  (forall n l, lookup n (pc_data c) = Some (ColV l) -> moves c n -> lookup n d = Some (ColV (pick_moved rows l))) /\
  (forall n x, lookup n (pc_data c) = Some x -> ~ moves c n -> lookup n d = Some (pick_col (map fst rows) x)).

Lemma moves_b : forall c n, mem n (pc_vectors c) && negb (mem n (pc_invariants c)) = true <-> moves c n.
Proof.
  intros. unfold moves. rewrite andb_true_iff, negb_true_iff, mem_In, mem_nIn. tauto.
Qed.

Lemma pick_shift : forall v idx l, pick idx (map (fun p => vadd p v) l) = pick_moved (map (fun i => (i, v)) idx) l.
Proof.
  intros v idx l. unfold pick, pick_moved. induction idx as [|i idx IH]; auto. cbn. rewrite IH, nth_error_map. destruct (nth_error l i); reflexivity.
Qed.
Lemma map_fst_pair : forall (v : vec) (idx : list nat), map fst (map (fun i => (i, v)) idx) = idx.
Proof. intros. rewrite map_map. cbn. apply map_id. Qed.

Lemma in_closed_box_spec : forall size center p,
  in_closed_box (vsub center (vscale (1 / 2) size)) (vadd center (vscale (1 / 2) size)) p = true <-> contained size center p.
Proof.
  intros size center p. unfold in_closed_box, contained. rewrite !andb_true_iff, !Rleb_true. unfold vsub, vadd, vscale; cbn [vx vy vz].
  assert (T : forall c s x, c - 1 / 2 * s <= x /\ x <= c + 1 / 2 * s <-> Rabs (x - c) <= s / 2).
  { intros. split; intros H; [apply Rabs_le; lra|]. apply Rabs_le_inv in H. lra. }
  rewrite <- !T. tauto.
Qed.

Lemma pad_shifts_int : forall f a, In a (pad_shifts f) -> exists k, a = IZR k.
Proof. intros f a H. unfold pad_shifts in H. apply in_map_iff in H. destruct H as (i & <- & _). eauto. Qed.
Lemma pad_shift_lattice : forall size l v, (forall a, In a l -> exists k, a = IZR k) -> pad_shift size l = Ok v -> lattice_shift size v.
Proof.
  intros size l v I H. unfold pad_shift in H. destruct l as [|a [|b [|d [|]]]]; try discriminate.
  - injection H as <-. destruct (I a (or_introl eq_refl)) as [k ->]. exists k, k, k. unfold vscale. destruct size; cbn. f_equal; ring.
  - injection H as <-. destruct (I a) as [i ->]; [cbn; auto|]. destruct (I b) as [j ->]; [cbn; auto|]. destruct (I d) as [k ->]; [cbn; auto|].
    exists i, j, k. reflexivity.
Qed.

Lemma pad_pass_spec : forall c size f pos d, moves (bc_cat c) (pc_position (bc_cat c)) ->
  column (bc_cat c) (pc_position (bc_cat c)) = Some (ColV pos) ->
  pad_pass c (vsub (boxcenter c) (vscale (1 / 2) size)) (vadd (boxcenter c) (vscale (1 / 2) size)) (pad_shifts f) = Ok d ->
  exists rows, padded (bc_cat c) rows d /\
    forall i v, In (i, v) rows -> lattice_shift (boxsize c) v /\ exists p, nth_error pos i = Some p /\ contained size (boxcenter c) (vadd p v).
Proof.
  intros c size f pos d M P H. unfold pad_pass in H.
  destruct (pad_shift (boxsize c) (pad_shifts f)) as [v|] eqn:S; [|discriminate]. cbn [bind] in H.
  assert (LS : lattice_shift (boxsize c) v) by (eapply pad_shift_lattice; [apply pad_shifts_int|exact S]).
  match type of H with (do d <- ?X; _) = _ => destruct X as [d1|] eqn:D1 end; [|discriminate]. cbn [bind] in H.
  apply map_cols_spec in D1. destruct D1 as [N1 L1].
  assert (P1 : lookup (pc_position (bc_cat c)) d1 = Some (ColV (map (fun p => vadd p v) pos))).
  { specialize (L1 (pc_position (bc_cat c))). unfold column in P. rewrite P in L1. destruct L1 as (x & F & ->).
    apply moves_b in M. rewrite M in F. cbn in F. congruence. }
  unfold get_vec in H. rewrite P1 in H. cbn [bind] in H.
  set (mask := map (in_closed_box (vsub (boxcenter c) (vscale (1 / 2) size)) (vadd (boxcenter c) (vscale (1 / 2) size))) (map (fun p => vadd p v) pos)) in H.
  apply map_cols_spec in H. destruct H as [N2 L2].
  exists (map (fun i => (i, v)) (trues mask)). split; [split; [congruence|split]|].
  - intros n l K Mn. specialize (L1 n). rewrite K in L1. destruct L1 as (x & F & L1). apply moves_b in Mn. rewrite Mn in F. cbn in F. injection F as <-.
    specialize (L2 n). rewrite L1 in L2. destruct L2 as (x' & F & L2). apply select_col_inv in F. subst x'. rewrite L2. cbn [pick_col]. rewrite pick_shift. reflexivity.
  - intros n x K Mn. specialize (L1 n). rewrite K in L1. destruct L1 as (x1 & F & L1).
    destruct (mem n (pc_vectors (bc_cat c)) && negb (mem n (pc_invariants (bc_cat c)))) eqn:B; [apply moves_b in B; contradiction|]. injection F as <-.
    specialize (L2 n). rewrite L1 in L2. destruct L2 as (x' & F & L2). apply select_col_inv in F. subst x'. rewrite L2, map_fst_pair. reflexivity.
  - intros i w I. apply in_map_iff in I. destruct I as (j & E & I). injection E as -> ->. split; auto.
    apply trues_In in I. unfold mask in I. rewrite !nth_error_map in I. destruct (nth_error pos i) as [p|]; [|discriminate]. cbn in I.
    exists p. split; auto. apply in_closed_box_spec. congruence.
Qed.

Lemma pick_moved_app : forall r1 r2 l, pick_moved (r1 ++ r2) l = pick_moved r1 l ++ pick_moved r2 l.
Proof. intros. unfold pick_moved. apply flat_map_app. Qed.
Lemma pick_app : forall {A} i1 i2 (l : list A), pick (i1 ++ i2) l = pick i1 l ++ pick i2 l.
Proof. intros. unfold pick. apply flat_map_app. Qed.

Lemma padded_concat : forall c r1 r2 d1 d2 d, padded c r1 d1 -> padded c r2 d2 -> concat_data d1 d2 = Ok d -> padded c (r1 ++ r2) d.
Proof.
  intros c r1 r2 d1 d2 d (N1 & A1 & B1) (N2 & A2 & B2) H. unfold concat_data in H. apply map_cols_spec in H. destruct H as [N L].
  split; [congruence|]. split.
  - intros n l K M. specialize (L n). rewrite (A1 n l K M) in L. destruct L as (x & F & L). rewrite (A2 n l K M) in F. cbn in F. injection F as <-.
    rewrite L, pick_moved_app. reflexivity.
  - intros n x K M. specialize (L n). rewrite (B1 n x K M) in L. destruct L as (y & F & L). rewrite (B2 n x K M) in F. rewrite L, map_app.
    destruct x; cbn in *; injection F as <-; rewrite pick_app; reflexivity.
Qed.

Lemma pad_rows : forall c f c' pos, moves (bc_cat c) (pc_position (bc_cat c)) ->
  column (bc_cat c) (pc_position (bc_cat c)) = Some (ColV pos) -> pad c f = Ok c' ->
  exists rows, boxsize c' = vmul (boxsize c) f /\ boxcenter c' = boxcenter c /\ names (bc_cat c') = names (bc_cat c) /\
    (forall i v, In (i, v) rows -> lattice_shift (boxsize c) v /\ exists p, nth_error pos i = Some p /\ contained (boxsize c') (boxcenter c') (vadd p v)) /\
    (forall n l, column (bc_cat c) n = Some (ColV l) -> moves (bc_cat c) n -> column (bc_cat c') n = Some (ColV (pick_moved rows l))) /\
    (forall n x, column (bc_cat c) n = Some x -> ~ moves (bc_cat c) n -> column (bc_cat c') n = Some (pick_col (map fst rows) x)).
Proof.
  intros c f c' pos M P H. unfold pad in H. cbn zeta in H.
  match type of H with (do d <- ?X; _) = _ => destruct X as [d0|] eqn:D0 end; [|discriminate]. cbn [bind] in H.
  match type of H with (do d <- ?X; _) = _ => destruct X as [d1|] eqn:D1 end; [|discriminate]. cbn [bind] in H.
  match type of H with (do d <- ?X; _) = _ => destruct X as [d2|] eqn:D2 end; [|discriminate]. cbn [bind] in H.
  destruct (concat_data d0 d1) as [d01|] eqn:C1; [|discriminate]. cbn [bind] in H.
  destruct (concat_data d01 d2) as [dd|] eqn:C2; [|discriminate]. cbn [bind] in H. injection H as <-.
  destruct (pad_pass_spec _ _ _ _ _ M P D0) as (r0 & P0 & R0). destruct (pad_pass_spec _ _ _ _ _ M P D1) as (r1 & P1 & R1).
  destruct (pad_pass_spec _ _ _ _ _ M P D2) as (r2 & P2 & R2).
  pose proof (padded_concat _ _ _ _ _ _ (padded_concat _ _ _ _ _ _ P0 P1 C1) P2 C2) as (N & A & B).
  exists ((r0 ++ r1) ++ r2). cbn [boxsize boxcenter bc_cat]. split; auto. split; auto. split; auto. split; [|split; auto].
  intros i v I. apply in_app_or in I. destruct I as [I|I]; [apply in_app_or in I; destruct I as [I|I]|]; auto.
Qed.

Lemma Rceil_unique : forall x n, IZR n - 1 < x <= IZR n -> Rceil x = n.
Proof.
  intros x n H. pose proof (Rceil_spec x). assert (K : (Rceil x < n + 1)%Z) by (apply lt_IZR; rewrite plus_IZR; lra).
  assert (K2 : (n < Rceil x + 1)%Z) by (apply lt_IZR; rewrite plus_IZR; lra). lia.
Qed.
Lemma pad_above_two : forall c f, 2 < vx f -> pad c f = Err ValueError.
Proof.
  intros c f H. unfold pad. cbn zeta. unfold pad_pass at 1.
  assert (L : (5 <= List.length (pad_shifts (vx f)))%nat).
  { unfold pad_shifts. rewrite map_length, seq_length. pose proof (Rceil_spec (vx f)). assert (2 < Rceil (vx f))%Z by (apply lt_IZR; lra). lia. }
  destruct (pad_shifts (vx f)) as [|a [|b [|d [|e l]]]]; cbn in L; try lia. reflexivity.
Qed.

Definition one_particle : boxcat := BoxCat (pcat_new [("Position"%string, ColV [V 0 0 0])] "Position" "Velocity" [] []) (V 1 1 1) (V 0 0 0).

Lemma pad_shifts_11 : pad_shifts (11 / 10) = [-1; 0; 1].
Proof. unfold pad_shifts. rewrite (Rceil_unique (11 / 10) 2) by lra. reflexivity. Qed.
Lemma pad_shifts_1 : pad_shifts 1 = [0].
Proof. unfold pad_shifts. rewrite (Rceil_unique 1 1) by lra. reflexivity. Qed.

Ltac rbl := repeat (match goal with
  | |- context [Rleb ?a ?b] => first [replace (Rleb a b) with true by (symmetry; apply Rleb_true; lra) | replace (Rleb a b) with false by (symmetry; apply Rleb_false; lra)]
  end); cbn [orb andb].

Lemma pad_drops : exists c', pad one_particle (V (11 / 10) (11 / 10) (11 / 10)) = Ok c' /\ column (bc_cat c') "Position" = Some (ColV []).
Proof.
  unfold pad. cbn zeta. cbn [vx vy vz]. rewrite pad_shifts_11. unfold pad_pass, pad_shift, one_particle, pcat_new. cbn. unfold in_closed_box, vmul, vsub, vscale, vadd, vopp. cbn [vx vy vz].
  rbl. cbn. eexists; split; reflexivity.
Qed.
Lemma pad_triples : exists c' p, pad one_particle (V 1 1 1) = Ok c' /\ column (bc_cat c') "Position" = Some (ColV [p; p; p]).
Proof.
  unfold pad. cbn zeta. cbn [vx vy vz]. rewrite pad_shifts_1. unfold pad_pass, pad_shift, one_particle, pcat_new. cbn. unfold in_closed_box, vmul, vsub, vscale, vadd, vopp. cbn [vx vy vz].
  rbl. cbn. eexists _, _; split; reflexivity.
Qed.

(* ---------- isometry_for_cutsky fails although the cuts fit ---------- *)
Lemma ctb_half : forall d, ctb_boxsize (0, d) (0, 180) (-90, 90) = V d (2 * d) (2 * d).
Proof.
  intros d. assert (RR : ctb_rarange (0, 180) = (0, 180)).
  { unfold ctb_rarange. cbn [fst snd]. rewrite !wrap_id_deg by lra. destruct (Rlt_dec 180 0); [lra|reflexivity]. }
  unfold ctb_boxsize. rewrite RR. cbn [fst snd].
  replace (Rabs (180 - 0) / 2 * PI / 180) with (PI / 2) by (rewrite Rabs_right by lra; field).
  replace (Rabs (90 - -90) / 2 * PI / 180) with (PI / 2) by (rewrite Rabs_right by lra; field).
  rewrite sin_PI2. f_equal; ring.
Qed.
Lemma ifc_err : forall c d em im e, cut_centers (vx (boxsize c)) (vx (boxcenter c)) d (mg0 em) (mg0 im) = Err e ->
  isometry_for_cutsky c (0, d) (0, 180) (-90, 90) em im None = Err e.
Proof.
  intros c d em im e H. unfold isometry_for_cutsky. destruct (ctb_ok (0, d) (0, 180) (-90, 90)) as (s & -> & _). cbn [bind].
  rewrite ctb_half. cbn [vx]. rewrite H. reflexivity.
Qed.

(* ---------- cutsky_from_isometry ---------- *)
Lemma set_col_lookup : forall n x d m, lookup m (set_col n x d) = if String.eqb m n then Some x else lookup m d.
Proof.
  induction d as [|[k y] d IH]; intros m; cbn.
  - destruct (String.eqb m n); auto.
  - destruct (String.eqb n k) eqn:E; cbn.
    + apply String.eqb_eq in E. subst k. destruct (String.eqb m n); auto.
    + destruct (String.eqb m k) eqn:F.
      * apply String.eqb_eq in F. subst k. destruct (String.eqb m n) eqn:G; auto. apply String.eqb_eq in G. subst. rewrite String.eqb_refl in E. discriminate.
      * apply IH.
Qed.
Lemma set_col_In : forall n x d m y, In (m, y) (set_col n x d) -> (m = n /\ y = x) \/ In (m, y) d.
Proof.
  induction d as [|[k z] d IH]; intros m y H; cbn in H.
  - destruct H as [H|[]]. injection H as <- <-. auto.
  - destruct (String.eqb n k) eqn:E.
    + apply String.eqb_eq in E. subst. destruct H as [H|H]; [injection H as <- <-; auto|right; right; auto].
    + destruct H as [H|H]; [right; left; auto|]. apply IH in H. destruct H; auto. right; right; auto.
Qed.

Lemma map_result_nth : forall {A B} (f : A -> result B) l m, map_result f l = Ok m ->
  List.length m = List.length l /\ forall i b, nth_error m i = Some b -> exists a, nth_error l i = Some a /\ f a = Ok b.
Proof.
  induction l as [|a l IH]; intros m H; cbn in H.
  - injection H as <-. split; auto. intros [|i] b E; discriminate.
  - destruct (f a) as [b0|] eqn:F; [|discriminate]. cbn [bind] in H. destruct (map_result f l) as [m0|] eqn:G; [|discriminate]. cbn [bind] in H.
    injection H as <-. destruct (IH m0 eq_refl) as [L K]. split; [cbn; auto|]. intros [|i] b E; cbn in *; [|auto]. injection E as <-. eauto.
Qed.

Lemma mask_and_spec : forall a b m, mask_and a b = Ok m -> List.length a = List.length b /\ List.length m = List.length a /\
  forall i, nth_error m i = Some true <-> nth_error a i = Some true /\ nth_error b i = Some true.
Proof.
  unfold mask_and. induction a as [|x a IH]; intros [|y b] m H; cbn in H; try discriminate.
  - injection H as <-. split; auto. split; auto. intros [|i]; cbn; split; intros K; try discriminate; destruct K; discriminate.
  - destruct (map2_result (fun x y => Ok (x && y)) a b) as [m0|] eqn:E; [|discriminate]. cbn in H. injection H as <-.
    destruct (IH _ _ E) as (L1 & L2 & S). split; [cbn; auto|]. split; [cbn; auto|]. intros [|i]; cbn; [|apply S].
    destruct x, y; cbn; split; intros K; try discriminate; auto; destruct K; congruence.
Qed.
Lemma mask_and_ok : forall a b, List.length a = List.length b -> exists m, mask_and a b = Ok m.
Proof. intros. unfold mask_and. apply map2_result_ok; eauto. Qed.

Definition sky_dist (x : R * R * R) : R := fst (fst x).
Definition sky_ra (x : R * R * R) : R := snd (fst x).

Lemma transform_vectors_rows : forall s c c' n, rows_ok n c -> transform_vectors s c = Ok c' -> rows_ok n c'.
Proof.
  intros s c c' n W H. unfold transform_vectors in H.
  match type of H with (do d <- ?X; _) = _ => destruct X as [d|] eqn:E end; [|discriminate]. cbn [bind] in H. injection H as <-.
  unfold rows_ok in *. cbn [pc_data]. revert d E. generalize (pc_vectors c) (pc_invariants c). intros vs is. induction (pc_data c) as [|[m x] dd IH]; intros d E; cbn in E.
  - injection E as <-. intros ? ? [].
  - destruct (if mem m vs then transform_col s (mem m is) x else Ok x) as [x'|] eqn:F; [|discriminate]. cbn [bind] in E.
    match type of E with (do d' <- ?X; _) = _ => destruct X as [d'|] eqn:E' end; [|discriminate]. cbn [bind] in E. injection E as <-.
    intros name y [I|I].
    + injection I as <- <-. assert (K : col_rows x' = col_rows x).
      { destruct (mem m vs); [|injection F as <-; auto]. destruct x; cbn in F; [|discriminate]. injection F as <-. cbn. apply map_length. }
      rewrite K. apply (W m). left; auto.
    + apply (IH (fun n x I => W n x (or_intror I)) d' eq_refl name y I).
Qed.

Lemma c2s_sky_point : forall p d ra dec, cartesian_to_sky true p = Ok (d, ra, dec) -> 0 < d /\ 0 <= ra < 360 /\ -90 <= dec <= 90 /\ p = sky_point d ra dec.
Proof.
  intros p d ra dec E. destruct (c2s_angles _ _ _ _ _ E) as (D & P & _). assert (NZ : p <> vzero) by (intros ->; rewrite vnorm_vzero in P; lra).
  destruct (c2s_ranges _ _ _ _ _ NZ E) as [A B]. unfold turn in *. rewrite <- D in P. split; auto. split; [lra|]. split; [lra|].
  pose proof (sky_roundtrip1 _ _ _ _ _ NZ E) as RT. rewrite <- RT at 1. unfold sky_to_cartesian, sky_point; cbn [num_val result_type3 num_dtype store_as conversion].
  unfold vscale; cbn [vx vy vz]. f_equal; ring.
Qed.

Lemma cfi1_thm : forall c s mr ma rdd n pos, wf n (bc_cat c) ->
  column (bc_cat c) (pc_position (bc_cat c)) = Some (ColV pos) ->
  (forall p, In p pos -> transform s false p <> vzero) ->
  (forall f, mr = Some f -> forall l, List.length l = n -> List.length (f l) = n) ->
  (forall f, ma = Some f -> forall l l', List.length l = n -> List.length l' = n -> List.length (f l l') = n) ->
  NoDup (rdd_names rdd) ->
  exists c' idx sky, cutsky_from_isometry1 c s mr ma rdd = Ok c' /\ StronglySorted lt idx /\
    (forall i p, nth_error pos i = Some p -> exists d ra dec, nth_error sky i = Some (d, ra, dec) /\
       0 < d /\ 0 <= ra < 360 /\ -90 <= dec <= 90 /\ transform s false p = sky_point d ra dec) /\
    (forall i, In i idx <-> (i < n)%nat /\
       (forall f, mr = Some f -> nth_error (f (map (fun x => fst (fst x)) sky)) i = Some true) /\
       (forall f, ma = Some f -> nth_error (f (map (fun x => snd (fst x)) sky) (map snd sky)) i = Some true)) /\
    (forall m l, column (bc_cat c) m = Some (ColV l) -> moves (bc_cat c) m -> ~ In m (rdd_names rdd) ->
       column c' m = Some (ColV (pick idx (map (transform s false) l)))) /\
    (forall m l, column (bc_cat c) m = Some (ColV l) -> In m (pc_vectors (bc_cat c)) -> In m (pc_invariants (bc_cat c)) -> ~ In m (rdd_names rdd) ->
       column c' m = Some (ColV (pick idx (map (transform s true) l)))) /\
    (forall m x, column (bc_cat c) m = Some x -> ~ In m (pc_vectors (bc_cat c)) -> ~ In m (rdd_names rdd) -> column c' m = Some (pick_col idx x)) /\
    (forall a b d, rdd = Some (a, b, d) -> column c' a = Some (ColS (pick idx (map (fun x => snd (fst x)) sky))) /\
       column c' b = Some (ColS (pick idx (map snd sky))) /\ column c' d = Some (ColS (pick idx (map (fun x => fst (fst x)) sky)))).
Proof.
  intros c s mr ma rdd n pos (Wr & Wv & Ip & Ni & Iv & Ivi) P NZ Lr La ND. unfold cutsky_from_isometry1. cbn zeta.
  set (cat0 := bc_cat c) in *.
  set (cat1 := pcat_new (pc_data cat0) (pc_position cat0) (pc_velocity cat0) (filter (fun n => mem n (map fst (pc_data cat0))) (pc_vectors cat0)) (pc_invariants cat0)).
  assert (Vec1 : forall m x, In (m, x) (pc_data cat0) -> (In m (pc_vectors cat1) <-> In m (pc_vectors cat0))).
  { intros m x I. unfold cat1, pcat_new. cbn [pc_vectors]. rewrite in_app_iff, filter_In. split.
    - intros [[H _]|[<-|[<-|[]]]]; auto.
    - intros H. left. split; auto. apply mem_In. apply in_map_iff. exists (m, x); auto. }
  assert (Inv1 : forall m, In m (pc_invariants cat1) <-> In m (pc_invariants cat0)).
  { intros m. unfold cat1, pcat_new. cbn [pc_invariants]. rewrite in_app_iff. cbn. split; [intros [H|[<-|[]]]; auto|auto]. }
  assert (W1 : vectors_ok cat1). { intros m x I J. apply (Wv m x); auto. apply (Vec1 m x); auto. }
  unfold cutsky_isometry. destruct (tv_ok s cat1 W1) as [cat2 E2]. rewrite E2. cbn [bind].
  pose proof (transform_vectors_rows s cat1 cat2 n Wr E2) as R2.
  destruct (tv_spec _ _ _ E2) as (N2 & V2 & I2 & P2 & _ & _ & Oth & Mov & Rot).
  assert (Pos2 : column cat2 (pc_position cat2) = Some (ColV (map (transform s false) pos))).
  { rewrite P2. apply Mov; [exact P|]. split; [|rewrite Inv1; exact Ni]. apply (Vec1 _ (ColV pos)); auto. apply lookup_In; auto. }
  unfold position, get_vec. unfold column in Pos2. rewrite Pos2. cbn [bind].
  assert (Ln : List.length pos = n) by (apply (Wr (pc_position cat0) (ColV pos)); apply lookup_In; exact P).
  destruct (map_result_all (cartesian_to_sky true) (fun p x => cartesian_to_sky true p = Ok x) (map (transform s false) pos)) as (sky & Es & Fs).
  { intros q I. apply in_map_iff in I. destruct I as (p & <- & I). destruct (c2s_ok true _ (NZ p I)) as (x & y & z & E). eauto. }
  rewrite Es. cbn [bind]. destruct (map_result_nth _ _ _ Es) as [Ls Ns]. rewrite map_length, Ln in Ls.
  set (dist := map (fun x => fst (fst x)) sky). set (ra := map (fun x => snd (fst x)) sky). set (dec := map snd sky).
  assert (Ld : List.length dist = n) by (unfold dist; rewrite map_length; auto).
  assert (Lra : List.length ra = n) by (unfold ra; rewrite map_length; auto).
  assert (Lde : List.length dec = n) by (unfold dec; rewrite map_length; auto).
  set (cat3 := match rdd with
             | Some (nra, ndec, ndist) =>
               PCat (set_col ndist (ColS dist) (set_col ndec (ColS dec) (set_col nra (ColS ra) (pc_data cat2))))
                    (pc_position cat2) (pc_velocity cat2) (pc_vectors cat2) (pc_invariants cat2)
             | None => cat2
             end).
  assert (R3 : rows_ok n cat3).
  { unfold cat3. destruct rdd as [[[nra ndec] ndist]|]; auto. intros m x I. cbn [pc_data] in I.
    apply set_col_In in I. destruct I as [[_ ->]|I]; [exact Ld|]. apply set_col_In in I. destruct I as [[_ ->]|I]; [exact Lde|].
    apply set_col_In in I. destruct I as [[_ ->]|I]; [exact Lra|]. apply (R2 m x I). }
  assert (C3 : forall m, ~ In m (rdd_names rdd) -> column cat3 m = column cat2 m).
  { intros m H. unfold cat3, column. destruct rdd as [[[nra ndec] ndist]|]; auto. cbn in H. cbn [pc_data]. rewrite !set_col_lookup.
    destruct (String.eqb_spec m ndist); [subst; exfalso; tauto|]. destruct (String.eqb_spec m ndec); [subst; exfalso; tauto|].
    destruct (String.eqb_spec m nra); [subst; exfalso; tauto|]. auto. }
  assert (Sel : exists mask, List.length mask = n /\
    match mr with
    | Some mr => do mask <- match ma with Some ma => mask_and (mr dist) (ma ra dec) | None => Ok (mr dist) end; select_rows mask cat3
    | None => match ma with Some ma => select_rows (ma ra dec) cat3 | None => Ok cat3 end
    end = match mr, ma with None, None => Ok cat3 | _, _ => select_rows mask cat3 end /\
    (forall i, nth_error mask i = Some true <-> (i < n)%nat /\ (forall f, mr = Some f -> nth_error (f dist) i = Some true) /\
       (forall f, ma = Some f -> nth_error (f ra dec) i = Some true))).
  { assert (Bnd : forall (m : list bool) i, List.length m = n -> nth_error m i = Some true -> (i < n)%nat).
    { intros m i L H. rewrite <- L. apply nth_error_Some. congruence. }
    destruct mr as [fr|]; destruct ma as [fa|].
    - destruct (mask_and_ok (fr dist) (fa ra dec)) as [m Em]. { rewrite (Lr fr), (La fa); auto. }
      destruct (mask_and_spec _ _ _ Em) as (_ & Lm & Sm). rewrite (Lr fr) in Lm by auto. exists m. split; auto. rewrite Em. split; auto.
      intros i. split.
      + intros H. split; [eapply Bnd; eauto|]. apply Sm in H. destruct H. split; intros f K; injection K as <-; auto.
      + intros (_ & H1 & H2). apply Sm. split; auto.
    - exists (fr dist). split; [apply Lr; auto|]. split; auto. intros i. split.
      + intros H. split; [eapply Bnd; [|exact H]; apply Lr; auto|]. split; intros f K; [injection K as <-; auto|discriminate].
      + intros (_ & H1 & _). auto.
    - exists (fa ra dec). split; [apply La; auto|]. split; auto. intros i. split.
      + intros H. split; [eapply Bnd; [|exact H]; apply La; auto|]. split; intros f K; [discriminate|injection K as <-; auto].
      + intros (_ & _ & H2). auto.
    - exists (repeat true n). split; [apply repeat_length|]. split; auto. intros i. split.
      + intros H. split; [eapply Bnd; [|exact H]; apply repeat_length|]. split; intros f K; discriminate.
      + intros (H & _). clear - H. revert i H. induction n; intros [|i] H; cbn; try lia; auto. apply IHn. lia. }
  destruct Sel as (mask & Lm & Em & Sm).
  assert (Fin : exists c', match mr, ma with None, None => Ok cat3 | _, _ => select_rows mask cat3 end = Ok c' /\
    forall m x, column cat3 m = Some x -> column c' m = Some (pick_col (trues mask) x)).
  { destruct (select_rows_spec mask cat3 n Lm R3) as (c' & E & _ & _ & _ & _ & _ & K & _).
    assert (NN : mr = None -> ma = None -> forall m x, column cat3 m = Some x -> Some x = Some (pick_col (trues mask) x)).
    { intros -> -> m x H. f_equal. assert (Lx : col_rows x = n) by (apply (R3 m); apply lookup_In; auto).
      assert (All : mask = repeat true n).
      { clear - Lm Sm. assert (T : forall i, (i < n)%nat -> nth_error mask i = Some true).
        { intros i H. apply Sm. split; auto. split; intros f K; discriminate. }
        clear Sm. revert n Lm T. induction mask as [|b m IH]; intros [|n] L T; cbn in L; try lia; auto. cbn. f_equal.
        - specialize (T 0%nat ltac:(lia)). cbn in T. congruence.
        - apply IH; [lia|]. intros i H. apply (T (S i)). lia. }
      assert (G : forall {A} (l : list A), List.length l = n -> pick (trues mask) l = l).
      { intros A l L. pose proof (select_pick mask l ltac:(congruence)) as Q. rewrite All in Q at 1.
        assert (Q2 : forall k (l : list A), List.length l = k -> select (repeat true k) l = Ok l).
        { clear. induction k; intros [|a l] H; cbn in *; try discriminate; auto. rewrite IHk by auto. reflexivity. }
        rewrite (Q2 n l L) in Q. injection Q as Q. auto. }
      destruct x as [l|l]; cbn in *; rewrite (G _ l Lx); auto. }
    destruct mr; destruct ma; try (exists c'; split; auto; fail). exists cat3. split; auto. intros m x H. rewrite H. apply (NN eq_refl eq_refl m x H). }
  destruct Fin as (c' & Ec & Kc). exists c', (trues mask), sky.
  split. { fold dist ra dec. fold cat3. rewrite <- Ec, <- Em. destruct mr; reflexivity. }
  split; [apply trues_from_sorted|]. split; [|split; [|split; [|split; [|split]]]].
  - intros i p Hp. assert (Hi : (i < List.length sky)%nat). { rewrite Ls, <- Ln. apply nth_error_Some. congruence. }
    apply nth_error_Some in Hi. destruct (nth_error sky i) as [[[d r] e]|] eqn:Hs; [|congruence]. exists d, r, e. split; auto.
    destruct (Ns i _ Hs) as (q & Hq & Eq). rewrite nth_error_map, Hp in Hq. cbn in Hq. injection Hq as <-. apply c2s_sky_point; auto.
  - intros i. rewrite trues_In. apply Sm.
  - intros m l K [J1 J2] NR. specialize (Kc m (ColV (map (transform s false) l))). rewrite C3 in Kc by auto. apply Kc. apply Mov; auto.
    split; [|rewrite Inv1; auto]. apply (Vec1 m (ColV l)); auto. apply lookup_In; auto.
  - intros m l K J1 J2 NR. specialize (Kc m (ColV (map (transform s true) l))). rewrite C3 in Kc by auto. apply Kc. apply Rot; auto.
    + apply (Vec1 m (ColV l)); auto. apply lookup_In; auto.
    + apply Inv1; auto.
  - intros m x K NV NR. specialize (Kc m x). rewrite C3 in Kc by auto. apply Kc. apply Oth; auto. rewrite (Vec1 m x); auto. apply lookup_In; auto.
  - intros a b d ->. cbn in ND. inversion ND as [|? ? A1 ND2]; subst. inversion ND2 as [|? ? A2 ND3]; subst. cbn in A1, A2.
    assert (Ea : column cat3 a = Some (ColS ra) /\ column cat3 b = Some (ColS dec) /\ column cat3 d = Some (ColS dist)).
    { unfold cat3, column; cbn [pc_data]. rewrite !set_col_lookup. rewrite !String.eqb_refl.
      destruct (String.eqb_spec a d); [subst; exfalso; tauto|]. destruct (String.eqb_spec a b); [subst; exfalso; tauto|].
      destruct (String.eqb_spec b d); [subst; exfalso; tauto|]. auto. }
    destruct Ea as (Ea & Eb & Ed). split; [|split].
    + apply (Kc a (ColS ra) Ea).
    + apply (Kc b (ColS dec) Eb).
    + apply (Kc d (ColS dist) Ed).
Qed.

Lemma cfi_list : forall c l mr ma rdd r, cutsky_from_isometry c (IsoList l) mr ma rdd = Ok r ->
  Forall2 (fun s x => cutsky_from_isometry1 c s mr ma rdd_default = Ok x) l r.
Proof.
  intros c l mr ma rdd r H. cbn in H. revert r H. induction l as [|s l IH]; intros r H; cbn in H.
  - injection H as <-. constructor.
  - destruct (cutsky_from_isometry1 c s mr ma rdd_default) as [x|] eqn:E; [|discriminate]. cbn [bind] in H.
    match type of H with (do d <- ?X; _) = _ => destruct X as [m|] eqn:F end; [|discriminate]. cbn [bind] in H. injection H as <-. constructor; auto.
Qed.
Lemma cfi_one : forall c s mr ma rdd r, cutsky_from_isometry c (IsoOne s) mr ma rdd = Ok r <-> exists x, r = [x] /\ cutsky_from_isometry1 c s mr ma rdd = Ok x.
Proof.
  intros. cbn. destruct (cutsky_from_isometry1 c s mr ma rdd) as [x|]; cbn; split.
  - intros H. injection H as <-. eauto.
  - intros (y & -> & H). injection H as <-. auto.
  - discriminate.
  - intros (y & _ & H). discriminate.
Qed.

Definition far_particle : boxcat := BoxCat (pcat_new [("Position"%string, ColV [V 1 0 0])] "Position" "Velocity" [] []) (V 1 1 1) (V 0 0 0).
Lemma cfi_list_rdd : exists r x, cutsky_from_isometry far_particle (IsoList [iso_new]) None None None = Ok [r] /\ column r "RA" = Some (ColS x).
Proof.
  assert (W : wf 1 (bc_cat far_particle)).
  { unfold far_particle, wf, rows_ok, vectors_ok, pcat_new; cbn. split; [|split; [|split; [|split; [|split]]]]; auto.
    - intros m x [H|[]]. injection H as <- <-. auto.
    - intros m x [H|[]] _. injection H as <- <-. eauto.
    - intros [H|[]]. discriminate. }
  destruct (cfi1_thm far_particle iso_new None None rdd_default 1 [V 1 0 0] W eq_refl) as (c' & idx & sky & E & _ & _ & _ & _ & _ & _ & K).
  - intros p [<-|[]] H. unfold transform, iso_new in H. cbn in H. apply (f_equal vx) in H. revert H. vunfold. cbn. lra.
  - discriminate.
  - discriminate.
  - repeat constructor; cbn; intuition discriminate.
  - exists c'. destruct (K _ _ _ eq_refl) as (A & _). eexists. split; [|exact A]. 
    change (cutsky_from_isometry far_particle (IsoList [iso_new]) None None None)
      with (do b <- cutsky_from_isometry1 far_particle iso_new None None rdd_default; do r <- Ok []; Ok (b :: r)).
    match goal with |- bind ?X _ = _ => replace X with (Ok c') end. reflexivity.
Qed.
