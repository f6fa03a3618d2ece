(** Theorems C15: exactly what padding returns. *)
Require Import Reals Lra Lia ZArith List Bool String.
From Verif Require Import Base Vec3 Isometry_Model Sky_Model Cutsky_Model Box_Model Box_Spec Box_Proof Box_Proof2 Box_Proof4 Box_Thm.
Import ListNotations.
Open Scope R_scope.

(** ** Specification *)
(** The positions of a list in a closed box. *)
Definition contained_dec (size center p : vec) : {contained size center p} + {~ contained size center p}.
Proof.
  unfold contained. destruct (Rle_dec (Rabs (vx p - vx center)) (vx size / 2)); [|right; tauto].
  destruct (Rle_dec (Rabs (vy p - vy center)) (vy size / 2)); [|right; tauto]. destruct (Rle_dec (Rabs (vz p - vz center)) (vz size / 2)); [left; tauto|right; tauto].
Defined.
Definition those_in (size center : vec) (l : list vec) : list vec := filter (fun p => if contained_dec size center p then true else false) l.
(** The one move made for a factor: none up to 1; above, minus one box along x and plus one along z. *)
Definition one_move (size : vec) (factor : R) : vec := if Rle_dec factor 1 then V 0 0 0 else V (- vx size) 0 (vz size).

(** ** Proofs *)
Lemma shifts_low : forall f, 0 < f <= 1 -> pad_shifts f = [0].
Proof. intros f H. unfold pad_shifts. rewrite (Rceil_unique f 1) by lra. reflexivity. Qed.
Lemma shifts_high : forall f, 1 < f <= 2 -> pad_shifts f = [-1; 0; 1].
Proof. intros f H. unfold pad_shifts. rewrite (Rceil_unique f 2) by lra. reflexivity. Qed.
Lemma pad_shift_move : forall size f, 0 < f <= 2 -> pad_shift size (pad_shifts f) = Ok (one_move size f).
Proof.
  intros size f H. unfold one_move. destruct (Rle_dec f 1); [rewrite shifts_low by lra|rewrite shifts_high by lra]; cbn; unfold vscale; repeat f_equal; ring.
Qed.
Lemma pad_shift_fails : forall size f, ~ 0 < f <= 2 -> pad_shift size (pad_shifts f) = Err ValueError.
Proof.
  intros size f H. pose proof (Rceil_spec f) as S. destruct (Rle_dec f 0) as [L|L].
  - unfold pad_shifts. assert (Rceil f <= 0)%Z by (apply Z.lt_succ_r, lt_IZR; cbn; lra). replace (Z.to_nat _) with 0%nat by lia. reflexivity.
  - assert (K : (5 <= List.length (pad_shifts f))%nat) by (unfold pad_shifts; rewrite map_length, seq_length; assert (2 < Rceil f)%Z by (apply lt_IZR; lra); lia).
    destruct (pad_shifts f) as [|a [|b [|d [|e l]]]]; cbn in K; try lia. reflexivity.
Qed.
Lemma pick_filter : forall {A} (g : A -> bool) l, pick (trues (map g l)) l = filter g l.
Proof.
  intros A g l. assert (E : forall m : list bool, List.length m = List.length l -> select m l = Ok (pick (trues m) l)) by (intros; apply select_pick; assumption).
  specialize (E (map g l) (map_length _ _)). revert E. generalize (pick (trues (map g l)) l). induction l as [|a l IH]; intros r E; cbn in E; [cbn; congruence|].
  destruct (select (map g l) l) as [r'|] eqn:S; [|discriminate]. cbn in E. specialize (IH r' eq_refl). cbn. destruct (g a); injection E as <-; congruence.
Qed.
Lemma those_filter : forall size center l, filter (in_closed_box (vsub center (vscale (1 / 2) size)) (vadd center (vscale (1 / 2) size))) l = those_in size center l.
Proof.
  intros. unfold those_in. apply filter_ext. intro p. pose proof (in_closed_box_spec size center p) as S. destruct (contained_dec size center p) as [C|C]; [tauto|].
  destruct (in_closed_box _ _ p); [tauto|reflexivity].
Qed.
(** One pass. *)
Lemma pass_exact : forall c size f pos d, moves (bc_cat c) (pc_position (bc_cat c)) -> 0 < f <= 2 ->
  column (bc_cat c) (pc_position (bc_cat c)) = Some (ColV pos) ->
  pad_pass c (vsub (boxcenter c) (vscale (1 / 2) size)) (vadd (boxcenter c) (vscale (1 / 2) size)) (pad_shifts f) = Ok d ->
  lookup (pc_position (bc_cat c)) d = Some (ColV (those_in size (boxcenter c) (map (fun p => vadd p (one_move (boxsize c) f)) pos))).
Proof.
  intros c size f pos d M F P H. unfold pad_pass in H. rewrite pad_shift_move in H by exact F. cbn [bind] in H.
  match type of H with (do d <- ?X; _) = _ => destruct X as [d1|] eqn:D1 end; [|discriminate]. cbn [bind] in H.
  apply map_cols_spec in D1. destruct D1 as [N1 L1].
  assert (P1 : lookup (pc_position (bc_cat c)) d1 = Some (ColV (map (fun p => vadd p (one_move (boxsize c) f)) pos))).
  { specialize (L1 (pc_position (bc_cat c))). unfold column in P. rewrite P in L1. destruct L1 as (x & G & ->). apply moves_b in M. rewrite M in G. cbn in G. congruence. }
  unfold get_vec in H. rewrite P1 in H. cbn [bind] in H. apply map_cols_spec in H. destruct H as [N2 L2]. specialize (L2 (pc_position (bc_cat c))). rewrite P1 in L2.
  destruct L2 as (x' & G & L2). apply select_col_inv in G. subst x'. rewrite L2. cbn [pick_col]. rewrite pick_filter, those_filter. reflexivity.
Qed.
Lemma pass_ok : forall c low high f n pos, wf n (bc_cat c) -> 0 < f <= 2 -> column (bc_cat c) (pc_position (bc_cat c)) = Some (ColV pos) ->
  exists d, pad_pass c low high (pad_shifts f) = Ok d.
Proof.
  intros c low high f n pos (RO & VO & PV & PI & _) F P. unfold pad_pass. rewrite pad_shift_move by exact F. cbn [bind].
  assert (M : moves (bc_cat c) (pc_position (bc_cat c))) by (split; assumption).
  match goal with |- context [map_cols ?F (pc_data _)] => destruct (map_cols_ok F (pc_data (bc_cat c))) as (d1 & D1) end.
  { intros m x I. destruct (mem m (pc_vectors (bc_cat c)) && negb (mem m (pc_invariants (bc_cat c)))) eqn:B; [|eauto]. apply moves_b in B. destruct (VO m x I (proj1 B)) as (l & ->). cbn. eauto. }
  rewrite D1. cbn [bind]. pose proof (map_cols_spec _ _ _ D1) as (N1 & L1).
  assert (P1 : lookup (pc_position (bc_cat c)) d1 = Some (ColV (map (fun p => vadd p (one_move (boxsize c) f)) pos))).
  { specialize (L1 (pc_position (bc_cat c))). unfold column in P. rewrite P in L1. destruct L1 as (x & G & ->). apply moves_b in M. rewrite M in G. cbn in G. congruence. }
  unfold get_vec. rewrite P1. cbn [bind]. apply map_cols_ok.
  assert (LP : List.length pos = n). { specialize (RO (pc_position (bc_cat c)) (ColV pos)). cbn in RO. apply RO. unfold column in P. clear - P. induction (pc_data (bc_cat c)) as [|(m, y) dd IH]; [discriminate|]. cbn in P. destruct (String.eqb_spec (pc_position (bc_cat c)) m) as [->|]; [injection P as ->; left; reflexivity|right; auto]. }
  assert (R1 : forall m x, In (m, x) d1 -> col_rows x = n).
  { clear - D1 RO. revert d1 D1. assert (RO' : forall name x, In (name, x) (pc_data (bc_cat c)) -> col_rows x = n) by exact RO. clear RO. revert RO'. induction (pc_data (bc_cat c)) as [|(m, y) dd IH]; intros RO d1 D1 k x I; cbn in D1; [injection D1 as <-; destruct I|].
    match type of D1 with (do c' <- ?X; _) = _ => destruct X as [y'|] eqn:Y end; [|discriminate]. cbn [bind] in D1.
    match type of D1 with (do c' <- ?X; _) = _ => destruct X as [d'|] eqn:Z end; [|discriminate]. cbn [bind] in D1. injection D1 as <-. destruct I as [I|I].
    - injection I as <- <-. specialize (RO m y (or_introl eq_refl)). destruct (mem m _ && _); [|congruence]. destruct y; cbn in Y; [|discriminate]. injection Y as <-. cbn in *. rewrite map_length. exact RO.
    - eapply IH; [|reflexivity|exact I]. intros; eapply RO; right; eauto. }
  intros m x I. rewrite select_col_pick; [eauto|]. rewrite !map_length, (R1 m x I). exact LP.
Qed.
Lemma lookup_nodup : forall (d : data) n x, NoDup (map fst d) -> In (n, x) d -> lookup n d = Some x.
Proof.
  induction d as [|(m, y) d IH]; intros n x N I; [destruct I|]. cbn in *. inversion N as [|? ? A B]; subst. destruct I as [I|I].
  - injection I as -> ->. rewrite String.eqb_refl. reflexivity.
  - destruct (String.eqb_spec n m) as [->|]; [|auto]. exfalso. apply A. apply in_map_iff. exists (m, x). auto.
Qed.
Lemma concat_ok : forall cat r1 r2 d1 d2, NoDup (map fst (pc_data cat)) -> vectors_ok cat -> padded cat r1 d1 -> padded cat r2 d2 -> exists d, concat_data d1 d2 = Ok d.
Proof.
  intros cat r1 r2 d1 d2 ND VO (N1 & A1 & B1) (N2 & A2 & B2). unfold concat_data. apply map_cols_ok. intros n x I.
  assert (ND1 : NoDup (map fst d1)) by (rewrite N1; exact ND). pose proof (lookup_nodup d1 n x ND1 I) as L.
  assert (J : In n (map fst (pc_data cat))) by (rewrite <- N1; apply in_map_iff; exists (n, x); auto). apply in_map_iff in J. destruct J as ((n', y) & E & J). cbn in E. subst n'.
  pose proof (lookup_nodup (pc_data cat) n y ND J) as K. destruct (mem n (pc_vectors cat) && negb (mem n (pc_invariants cat))) eqn:M.
  - apply moves_b in M. destruct (VO n y J (proj1 M)) as (l & ->). rewrite (A1 n l K M) in L. injection L as <-. rewrite (A2 n l K M). cbn. eauto.
  - assert (M' : ~ moves cat n) by (intro Q; apply moves_b in Q; congruence). rewrite (B1 n y K M') in L. injection L as <-. rewrite (B2 n y K M'). destruct y; cbn; eauto.
Qed.
(** Exactly what padding does: it needs factors above 0 and at most 2 on each axis, and returns, for each axis in turn, all particles moved in one way, cut to the new box. *)
Theorem C15_exactly : forall c f n pos, wf n (bc_cat c) -> NoDup (names (bc_cat c)) -> column (bc_cat c) (pc_position (bc_cat c)) = Some (ColV pos) ->
  ((exists c', pad c f = Ok c') <-> 0 < vx f <= 2 /\ 0 < vy f <= 2 /\ 0 < vz f <= 2) /\
  (forall c', pad c f = Ok c' -> column (bc_cat c') (pc_position (bc_cat c)) =
    Some (ColV (flat_map (fun g => those_in (boxsize c') (boxcenter c') (map (fun p => vadd p (one_move (boxsize c) g)) pos)) [vx f; vy f; vz f]))).
Proof.
  intros c f n pos W ND P. assert (M : moves (bc_cat c) (pc_position (bc_cat c))) by (destruct W as (_ & _ & A & B & _); split; assumption).
  assert (NF : forall low high g, ~ 0 < g <= 2 -> pad_pass c low high (pad_shifts g) = Err ValueError) by (intros low high g G; unfold pad_pass; rewrite pad_shift_fails by exact G; reflexivity).
  assert (D : forall g, 0 < g <= 2 \/ ~ 0 < g <= 2) by (intro g; destruct (Rlt_dec 0 g); destruct (Rle_dec g 2); [left; lra|right; lra|right; lra|right; lra]).
  set (size := vmul (boxsize c) f). set (low := vsub (boxcenter c) (vscale (1 / 2) size)). set (high := vadd (boxcenter c) (vscale (1 / 2) size)).
  assert (OK : 0 < vx f <= 2 /\ 0 < vy f <= 2 /\ 0 < vz f <= 2 -> exists d0 d1 d2 d01 dd, pad_pass c low high (pad_shifts (vx f)) = Ok d0 /\ pad_pass c low high (pad_shifts (vy f)) = Ok d1 /\ pad_pass c low high (pad_shifts (vz f)) = Ok d2 /\ concat_data d0 d1 = Ok d01 /\ concat_data d01 d2 = Ok dd).
  { intros (X & Y & Z). destruct (pass_ok c low high _ n pos W X P) as (d0 & D0). destruct (pass_ok c low high _ n pos W Y P) as (d1 & D1). destruct (pass_ok c low high _ n pos W Z P) as (d2 & D2).
    destruct (pad_pass_spec c size _ pos d0 M P D0) as (r0 & P0 & _). destruct (pad_pass_spec c size _ pos d1 M P D1) as (r1 & P1 & _). destruct (pad_pass_spec c size _ pos d2 M P D2) as (r2 & P2 & _).
    assert (VO : vectors_ok (bc_cat c)) by apply W. destruct (concat_ok _ _ _ _ _ ND VO P0 P1) as (d01 & C1). pose proof (padded_concat _ _ _ _ _ _ P0 P1 C1) as P01. destruct (concat_ok _ _ _ _ _ ND VO P01 P2) as (dd & C2).
    exists d0, d1, d2, d01, dd. auto. }
  assert (NEED : (exists c', pad c f = Ok c') -> 0 < vx f <= 2 /\ 0 < vy f <= 2 /\ 0 < vz f <= 2).
  { intros (c' & H). unfold pad in H. cbn zeta in H. fold size low high in H.
    destruct (D (vx f)) as [X|X]; [|rewrite (NF low high _ X) in H; discriminate]. split; [exact X|].
    match type of H with (do d <- ?X; _) = _ => destruct X as [d0|] eqn:D0 end; [|discriminate]. cbn [bind] in H.
    destruct (D (vy f)) as [Y|Y]; [|rewrite (NF low high _ Y) in H; discriminate]. split; [exact Y|].
    match type of H with (do d <- ?X; _) = _ => destruct X as [d1|] eqn:D1 end; [|discriminate]. cbn [bind] in H.
    destruct (D (vz f)) as [Z|Z]; [exact Z|rewrite (NF low high _ Z) in H; discriminate]. }
  split; [split; [exact NEED|]|].
  - intro F. destruct (OK F) as (d0 & d1 & d2 & d01 & dd & D0 & D1 & D2 & C1 & C2). eexists. unfold pad. cbn zeta. fold size low high. rewrite D0. cbn [bind]. rewrite D1. cbn [bind]. rewrite D2. cbn [bind]. rewrite C1. cbn [bind]. rewrite C2. reflexivity.
  - intros c' H. destruct (NEED (ex_intro _ c' H)) as (X & Y & Z). destruct (OK (conj X (conj Y Z))) as (d0 & d1 & d2 & d01 & dd & D0 & D1 & D2 & C1 & C2).
    unfold pad in H. cbn zeta in H. fold size low high in H. rewrite D0 in H. cbn [bind] in H. rewrite D1 in H. cbn [bind] in H. rewrite D2 in H. cbn [bind] in H. rewrite C1 in H. cbn [bind] in H. rewrite C2 in H. cbn [bind] in H. injection H as <-.
    cbn [bc_cat boxsize boxcenter]. unfold column. cbn [pc_data].
    pose proof (pass_exact c size _ pos d0 M X P D0) as E0. pose proof (pass_exact c size _ pos d1 M Y P D1) as E1. pose proof (pass_exact c size _ pos d2 M Z P D2) as E2.
    unfold concat_data in C1, C2. apply map_cols_spec in C1. destruct C1 as (_ & L1). specialize (L1 (pc_position (bc_cat c))). rewrite E0 in L1. destruct L1 as (x1 & G1 & L1). rewrite E1 in G1. cbn in G1. injection G1 as <-.
    apply map_cols_spec in C2. destruct C2 as (_ & L2). specialize (L2 (pc_position (bc_cat c))). rewrite L1 in L2. destruct L2 as (x2 & G2 & L2). rewrite E2 in G2. cbn in G2. injection G2 as <-.
    rewrite L2. cbn [flat_map]. rewrite app_nil_r, app_assoc. reflexivity.
Qed.
Print Assumptions C15_exactly.
(** So with factors above 1 on all axes no particle is ever returned strictly inside the original box, whatever the catalog. *)
Theorem C15_box_emptied_refuted : forall c f n pos c' out q, wf n (bc_cat c) -> NoDup (names (bc_cat c)) -> column (bc_cat c) (pc_position (bc_cat c)) = Some (ColV pos) ->
  (forall p, In p pos -> contained (boxsize c) (boxcenter c) p) -> 1 < vx f -> 1 < vy f -> 1 < vz f -> pad c f = Ok c' ->
  column (bc_cat c') (pc_position (bc_cat c)) = Some (ColV out) -> In q out -> vx q <= vx (boxcenter c) - vx (boxsize c) / 2.
Proof.
  intros c f n pos c' out q W ND P IN X Y Z H O I. destruct (C15_exactly c f n pos W ND P) as (_ & E). rewrite (E c' H) in O. injection O as <-.
  cbn [flat_map] in I. rewrite !in_app_iff in I. unfold one_move in I. destruct (Rle_dec (vx f) 1); [lra|]. destruct (Rle_dec (vy f) 1); [lra|]. destruct (Rle_dec (vz f) 1); [lra|].
  assert (J : In q (those_in (boxsize c') (boxcenter c') (map (fun p => vadd p (V (- vx (boxsize c)) 0 (vz (boxsize c)))) pos))) by (destruct I as [I|[I|[I|[]]]]; exact I).
  apply filter_In in J. destruct J as (J & _). apply in_map_iff in J. destruct J as (p & <- & J). destruct (IN p J) as (A & _). apply Rabs_le_inv in A. unfold vadd. cbn [vx]. lra.
Qed.
Print Assumptions C15_box_emptied_refuted.
(** A case: two particles, factor 3/2. *)
Example C15_exact_case : wf 2 (bc_cat two_particles) /\ NoDup (names (bc_cat two_particles)) /\ exists c', pad two_particles (V (3 / 2) (3 / 2) (3 / 2)) = Ok c'.
Proof.
  assert (W : wf 2 (bc_cat two_particles)).
  { split; [|split].
    - intros m x I. cbn in I. destruct I as [I|[I|[I|[]]]]; injection I as <- <-; reflexivity.
    - apply C12_case.
    - cbn. repeat split; auto. intros [A|A]; [discriminate|destruct A]. }
  assert (ND : NoDup (names (bc_cat two_particles))) by (repeat constructor; cbn; intuition discriminate).
  split; [exact W|]. split; [exact ND|]. destruct C14_case as (_ & pos & P & _). apply (proj1 (C15_exactly two_particles _ 2 pos W ND P)). cbn [vx vy vz]. lra.
Qed.
