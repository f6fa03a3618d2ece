(** Property C44: shuffling of distances. Vocabulary in Blind_Spec.v. *)
Require Import Reals ZArith List Bool String Lra Lia Permutation.
From Verif Require Import Base Vec3 Isometry_Model Isometry_Spec Isometry_Proof Sky_Model Sky_Spec Sky_Proof Sky_Thm Cutsky_Model Box_Model Rsd_Model Rsd_Spec Rsd_Proof Density_Proof Mock_Model Mock_Spec Mock_Thm Mock_Thm2 Blind_Model Blind_Spec Blind_Thm2.
Import ListNotations.
Open Scope R_scope.

(** Assignment at a mask. *)
Lemma assign_ok : forall {A B} (f : A -> B -> result A) (rel : A -> A -> Prop) (dist : A -> B) (good : B -> Prop) mask values l, List.length mask = List.length l ->
  Forall (fun a => forall v, good v -> exists a', f a v = Ok a' /\ rel a a' /\ dist a' = v) (select mask l) -> Forall good values -> List.length values = List.length (select mask l) ->
  exists l', assign f mask values l = Ok l' /\ Forall2 (fun x q => if fst x : bool then rel (snd x) q else q = snd x) (combine mask l) l' /\ select mask (map dist l') = values.
Proof.
  intros A B f rel dist good. induction mask as [|b mask IH]; intros values [|a l] L FS FV LV; cbn in L; try lia.
  - exists []. cbn in LV. destruct values; [|discriminate]. cbn. auto.
  - assert (L' : List.length mask = List.length l) by lia. destruct b; cbn [select] in FS, LV.
    + destruct values as [|v values]; [discriminate|]. inversion FS as [|? ? F1 F2]; subst. inversion FV as [|? ? G1 G2]; subst. destruct (F1 v G1) as (a' & E & RL & DV). destruct (IH values l L' F2 G2 ltac:(cbn in LV; lia)) as (l' & EA & FA & SA).
      exists (a' :: l'). cbn [assign combine map select]. rewrite E. cbn [bind]. rewrite EA. split; auto. split; [constructor; cbn [fst snd]; auto|]. rewrite SA, DV. auto.
    + destruct (IH values l L' FS FV LV) as (l' & EA & FA & SA). exists (a :: l'). cbn [assign combine map select]. rewrite EA. split; auto. split; [constructor; cbn [fst snd]; auto|]. auto.
Qed.
Lemma select_perm : forall {A B} (dist : A -> B) (rel : A -> A -> Prop) mask l l', List.length mask = List.length l -> Forall2 (fun x q => if fst x : bool then rel (snd x) q else q = snd x) (combine mask l) l' ->
  Permutation (select mask (map dist l')) (select mask (map dist l)) -> Permutation (map dist l') (map dist l).
Proof.
  intros A B dist rel mask l l' L F P. assert (SP : forall (m : list bool) (x : list B), List.length m = List.length x -> Permutation x (select m x ++ select (map negb m) x)).
  { induction m as [|[|] m IH]; intros [|a x] LX; cbn in *; try lia; auto. apply Permutation_cons_app. apply IH. lia. }
  assert (LL : List.length l' = List.length l). { apply f2_length in F. rewrite combine_length in F. lia. }
  rewrite (SP mask (map dist l')) by (rewrite map_length; lia). rewrite (SP mask (map dist l)) by (rewrite map_length; lia). apply Permutation_app; auto.
  replace (select (map negb mask) (map dist l')) with (select (map negb mask) (map dist l)); auto. clear -L F. revert l l' L F. induction mask as [|b mask IH]; intros [|a l] [|q l'] L F; cbn in *; try lia; auto; inversion F as [|? ? ? ? F1 F2]; subst.
  destruct b; cbn in *; [|rewrite F1; f_equal]; apply IH; auto.
Qed.
Lemma select_map : forall {A B} (f : A -> B) m l, select m (map f l) = map f (select m l).
Proof. intros A B f. induction m as [|[|] m IH]; intros [|a l]; cbn; auto. rewrite IH. auto. Qed.
Lemma select_forall : forall {A} (P : A -> Prop) (m : list bool) l, Forall (fun x : bool * A => fst x = true -> P (snd x)) (combine m l) -> Forall P (select m l).
Proof. intros A P. induction m as [|b m IH]; intros [|a l] H; cbn in *; auto. inversion H; subst. destruct b; [constructor; auto|]; auto. Qed.
Definition picked (frac : R) (u : list R) : list bool := map (fun x => Rltb x frac) u.
Lemma parts_one : forall isrdd frac u permute l, List.length u = List.length l -> shuffle_parts isrdd frac [u] permute [l] =
  bind (assign (if isrdd then set_third else set_distance) (picked frac u) (firstn (List.length (select (picked frac u) l)) (permute (map (if isrdd then vz else distance) (select (picked frac u) l)))) l) (fun q => Ok [q]).
Proof.
  intros isrdd frac u permute l L. unfold shuffle_parts. cbn [map combine fst snd List.concat chunks map_result]. fold (picked frac u). rewrite app_nil_r, map_length. cbn [fst snd]. destruct isrdd; auto.
Qed.
Lemma forall2_and_l : forall {A B} (R1 R2 : A -> B -> Prop) a b, (forall x y, R1 x y -> R2 x y) -> Forall2 R1 a b -> Forall2 R2 a b.
Proof. intros A B R1 R2 a b H F. induction F; constructor; auto. Qed.
Lemma unselected_rows : forall frac u (l l' : list vec) rel, List.length u = List.length l -> Forall2 (fun x q => if fst x : bool then rel (snd x) q else q = snd x) (combine (picked frac u) l) l' ->
  each (fun x q => frac <= fst x -> q = snd x) (combine u l) l'.
Proof.
  intros frac u. induction u as [|x u IH]; intros [|a l] l' rel L F; cbn in *; try lia; inversion F as [|? q ? l0 F1 F2]; subst; constructor; [|eapply IH; eauto]. cbn in *. intros G. unfold Rltb in F1. destruct (Rlt_dec x frac); [lra|auto].
Qed.
Lemma all_rows : forall frac u (l l' : list vec) (rel : vec -> vec -> Prop), List.length u = List.length l -> (forall a, rel a a) -> Forall2 (fun x q => if fst x : bool then rel (snd x) q else q = snd x) (combine (picked frac u) l) l' -> each rel l l'.
Proof.
  intros frac u. induction u as [|x u IH]; intros [|a l] l' rel L RF F; cbn in *; try lia; inversion F as [|? q ? l0 F1 F2]; subst; constructor; [|eapply IH; eauto]. cbn in F1. destruct (Rltb x frac); auto. subst; auto.
Qed.
(** C44. Cartesian positions: every object keeps its direction, the ones that are not selected keep their position, and distances are permuted. *)
Theorem C44_cartesian : forall fid blind z dtype d u permute l f_blind f_fid, floating (cast dtype d) = true -> growth_rate blind None f_blind -> growth_rate fid z f_fid -> f_fid <> 0 -> (f_blind / f_fid) ^ 2 <= 1 ->
  List.length u = List.length l -> (forall x, Permutation (permute x) x) -> Forall (fun x => fst x < (f_blind / f_fid) ^ 2 -> snd x <> vzero) (combine u l) ->
  exists l', shuffle fid blind z "pos" dtype u permute (as_pos d l) = Ok (as_pos F8 l') /\ shuffle fid blind z "xyz" dtype u permute (as_xyz d l) = Ok (as_xyz F8 l') /\
    each same_direction l l' /\ Permutation (map (fun p => dist3 p vzero) l') (map (fun p => dist3 p vzero) l) /\ each (fun x q => (f_blind / f_fid) ^ 2 <= fst x -> q = snd x) (combine u l) l'.
Proof.
  intros fid blind z dtype d u permute l fb ff F GB GF NZ FR L PM ORG. unfold growth_rate in *. set (frac := (fb / ff) ^ 2) in *. set (m := picked frac u). assert (LM : List.length m = List.length l) by (unfold m, picked; rewrite map_length; auto).
  assert (SEL : Forall (fun p => p <> vzero) (select m l)). { apply select_forall. clear -ORG L. unfold m, picked. revert l L ORG. induction u as [|x u IH]; intros [|a l] L ORG; cbn in *; auto. inversion ORG as [|? ? O1 O2]; subst. constructor; [|apply IH; auto]. cbn [fst snd] in *. intros HH. apply O1. apply Rltb_true. exact HH. }
  set (ds := map distance (select m l)). assert (GP : Forall (fun v => 0 < v) ds). { unfold ds. rewrite Forall_map. eapply Forall_impl; [|exact SEL]. intros p P. rewrite distance_vnorm. apply vnorm_pos. auto. }
  assert (GP' : Forall (fun v => 0 < v) (permute ds)). { eapply Permutation_Forall; [apply Permutation_sym; apply PM|auto]. }
  assert (LP : List.length (permute ds) = List.length (select m l)). { rewrite (Permutation_length (PM ds)). unfold ds. apply map_length. }
  destruct (assign_ok set_distance same_direction distance (fun v => 0 < v) m (permute ds) l LM) as (l' & EA & FA & SA); auto.
  { eapply Forall_impl; [|exact SEL]. intros p P v V0. pose proof (vnorm_pos p P) as VP. exists (vscale (v / distance p) p). unfold set_distance, fdiv. rewrite !distance_vnorm in *. destruct (Req_EM_T (vnorm p) 0); [lra|]. cbn [bind]. split; auto.
    assert (K : 0 < v / vnorm p) by (apply Rdiv_lt_0_compat; auto). split; [exists (v / vnorm p); auto|]. rewrite vnorm_scale, Rabs_pos_eq by lra. field. lra. }
  assert (SP : shuffle_parts false frac [u] permute [l] = Ok [l']). { rewrite parts_one by auto. fold m ds. rewrite <- LP, firstn_all, EA. auto. }
  exists l'. unfold shuffle. cbn [String.eqb Ascii.eqb Bool.eqb orb]. rewrite fmt_pos, fmt_xyz by auto. cbn [bind]. rewrite GB, GF. cbn [bind]. unfold fdiv. destruct (Req_EM_T ff 0); [contradiction|]. cbn [bind]. fold frac. rewrite (proj2 (Rltb_false 1 frac) FR). rewrite SP. cbn [bind List.concat]. rewrite app_nil_r.
  split; auto. split; auto. split; [eapply all_rows; eauto; intros a; exists 1; split; [lra|destruct a; unfold vscale; cbn; f_equal; ring]|]. split; [|eapply unselected_rows; eauto].
  assert (DD : forall x, map (fun p => dist3 p vzero) x = map distance x). { intros x. apply map_ext. intros a. rewrite dist3_origin, distance_vnorm. auto. } rewrite !DD. eapply select_perm; [exact LM|exact FA|]. rewrite SA, select_map. apply PM.
Qed.
Print Assumptions C44_cartesian.
(** Sky coordinates: right ascension and declination are kept, the third coordinate is permuted. The output is one array of three rows. *)
Theorem C44_sky : forall fid blind z t dtype d u permute l f_blind f_fid, t = "rdd"%string \/ t = "rdz"%string -> floating (cast dtype d) = true -> growth_rate blind None f_blind -> growth_rate fid z f_fid -> f_fid <> 0 -> (f_blind / f_fid) ^ 2 <= 1 ->
  List.length u = List.length l -> (forall x, Permutation (permute x) x) ->
  exists l' out, shuffle fid blind z t dtype u permute (as_sky d l) = Ok out /\ as_columns out = as_columns (as_sky F8 l') /\
    each (fun s s' => fst s' = fst s) l l' /\ Permutation (map snd l') (map snd l) /\ each (fun x s' => (f_blind / f_fid) ^ 2 <= fst x -> s' = snd x) (combine u l) l'.
Proof.
  intros fid blind z t dtype d u permute l fb ff T F GB GF NZ FR L PM. unfold growth_rate in *. set (frac := (fb / ff) ^ 2) in *. set (m := picked frac u).
  set (pos := map (fun s : R * R * R => V (fst (fst s)) (snd (fst s)) (snd s)) l). assert (LL : List.length pos = List.length l) by apply map_length. assert (LM : List.length m = List.length pos) by (unfold m, picked; rewrite map_length; lia).
  set (ds := map vz (select m pos)). assert (LP : List.length (permute ds) = List.length (select m pos)). { rewrite (Permutation_length (PM ds)). unfold ds. apply map_length. }
  destruct (assign_ok set_third (fun p q => vx q = vx p /\ vy q = vy p) vz (fun v => True) m (permute ds) pos LM) as (p' & EA & FA & SA); auto.
  { apply Forall_forall. intros p _ v _. exists (V (vx p) (vy p) v). unfold set_third. cbn. auto. }
  { apply Forall_forall. auto. }
  assert (SP : shuffle_parts true frac [u] permute [pos] = Ok [p']). { rewrite parts_one by lia. fold m ds. rewrite <- LP, firstn_all, EA. auto. }
  assert (FMT : format_positions "xyz" dtype (fun z => z) (as_sky d l) = Ok pos). { rewrite (fmt_cols "xyz" dtype d _ l (fun s => fst (fst s)) (fun s => snd (fst s)) snd) by (auto; discriminate). auto. }
  exists (map (fun p => (vx p, vy p, vz p)) p'), (as_xyz F8 p'). split.
  { unfold shuffle. destruct T; subst t; cbn [String.eqb Ascii.eqb Bool.eqb orb]; rewrite FMT; cbn [bind]; rewrite GB, GF; cbn [bind]; unfold fdiv; (destruct (Req_EM_T ff 0); [contradiction|]); cbn [bind]; fold frac; rewrite (proj2 (Rltb_false 1 frac) FR); rewrite SP; cbn [bind List.concat]; rewrite app_nil_r; auto. }
  split; [unfold as_xyz, as_sky, as_columns; cbn [map]; rewrite !map_map; auto|].
  assert (ALL : each (fun p q => vx q = vx p /\ vy q = vy p) pos p') by (eapply (all_rows frac u); [lia|intros; auto|exact FA]). assert (LU : List.length u = List.length pos) by lia. pose proof (unselected_rows frac u pos p' (fun p q => vx q = vx p /\ vy q = vy p) LU FA) as UN.
  split; [|split].
  - unfold each in *. unfold pos in ALL. clear -ALL. revert p' ALL. induction l as [|[[a b] c] l IH]; intros p' ALL; inversion ALL as [|? q ? p0 [E1 E2] H]; subst; cbn [map]; constructor; auto. cbn in *. congruence.
  - rewrite map_map. cbn [snd]. replace (map snd l) with (map vz pos) by (unfold pos; rewrite map_map; auto). apply (select_perm vz (fun p q => vx q = vx p /\ vy q = vy p) m); [exact LM|exact FA|]. change (map (fun x : vec => vz x) p') with (map vz p'). rewrite SA, select_map. apply PM.
  - unfold each in *. unfold pos in UN. clear -UN L. revert u L p' UN. induction l as [|[[a b] c] l IH]; intros [|x u] L p' UN; cbn in *; try lia; inversion UN as [|? q ? p0 E H]; subst; cbn [map]; constructor; auto. cbn in *. intros G. rewrite (E G). auto.
Qed.
Print Assumptions C44_sky.

(** However objects are distributed over processes, the result is the one of a single process. *)
Lemma select_app : forall {A} m1 m2 (l1 l2 : list A), List.length m1 = List.length l1 -> select (m1 ++ m2) (l1 ++ l2) = (select m1 l1 ++ select m2 l2)%list.
Proof. intros A. induction m1 as [|b m1 IH]; intros m2 [|a l1] l2 L; cbn in *; try lia; auto. destruct b; cbn; rewrite IH by lia; auto. Qed.
Lemma assign_app : forall {A B} (f : A -> B -> result A) m1 m2 v1 v2 l1 l2 q1 q2, List.length m1 = List.length l1 -> List.length v1 = List.length (select m1 l1) -> assign f m1 v1 l1 = Ok q1 -> assign f m2 v2 l2 = Ok q2 ->
  assign f (m1 ++ m2) (v1 ++ v2) (l1 ++ l2) = Ok (q1 ++ q2)%list.
Proof.
  intros A B f. induction m1 as [|b m1 IH]; intros m2 v1 v2 [|a l1] l2 q1 q2 L LV E1 E2; cbn in L; try lia.
  - cbn in *. destruct v1; [|discriminate]. apply ok_inj_p in E1. subst q1. auto.
  - destruct b; cbn [select assign app] in *.
    + destruct v1 as [|v v1]; [discriminate|]. cbn [app]. destruct (f a v) as [a'|]; [|discriminate]. cbn [bind] in *. destruct (assign f m1 v1 l1) as [q|] eqn:EQ; [|discriminate]. cbn [bind] in E1. apply ok_inj_p in E1. subst q1.
      rewrite (IH m2 v1 v2 l1 l2 q q2); auto; cbn in LV; lia.
    + destruct (assign f m1 v1 l1) as [q|] eqn:EQ; [|discriminate]. cbn [bind] in E1. apply ok_inj_p in E1. subst q1. rewrite (IH m2 v1 v2 l1 l2 q q2); auto; lia.
Qed.
Lemma picked_app : forall frac a b, picked frac (a ++ b) = (picked frac a ++ picked frac b)%list.
Proof. intros. apply map_app. Qed.
Definition parts_masked (isrdd : bool) (frac : R) (u : list (list R)) (parts : list (list vec)) : list (list R) :=
  map (fun x => map (if isrdd then vz else distance) (select (fst x) (snd x))) (combine (map (picked frac) u) parts).
Lemma masked_concat : forall isrdd frac u parts, Forall2 (fun a b => List.length a = List.length b) u parts ->
  List.concat (parts_masked isrdd frac u parts) = map (if isrdd then vz else distance) (select (picked frac (List.concat u)) (List.concat parts)).
Proof.
  intros isrdd frac u parts H. unfold parts_masked. induction H as [|a b u parts L H IH]; cbn [map combine List.concat fst snd]; auto. rewrite picked_app. rewrite select_app by (unfold picked; rewrite map_length; auto). rewrite map_app, IH. auto.
Qed.
Lemma assign_parts : forall f frac u parts, Forall2 (fun a b => List.length a = List.length b) u parts -> forall dist v outs, 
  List.length v = List.length (List.concat (map (fun x => map (dist : vec -> R) (select (fst x) (snd x))) (combine (map (picked frac) u) parts))) ->
  map_result (fun x : list bool * list vec * list R => assign f (fst (fst x)) (snd x) (snd (fst x)))
    (combine (combine (map (picked frac) u) parts) (chunks (map (@List.length R) (map (fun x => map dist (select (fst x) (snd x))) (combine (map (picked frac) u) parts))) v)) = Ok outs ->
  assign f (picked frac (List.concat u)) v (List.concat parts) = Ok (List.concat outs).
Proof.
  intros f frac u parts H. induction H as [|a b u parts L H IH]; intros dist v outs LV M.
  - cbn in *. apply ok_inj_p in M. subst outs. auto.
  - cbn [map combine chunks map_result fst snd List.concat] in *. rewrite map_length in M. rewrite app_length, map_length in LV. destruct (assign f (picked frac a) (firstn _ v) b) as [q|] eqn:EQ; [|discriminate]. cbn [bind] in M.
    destruct (map_result _ _) as [outs'|] eqn:EM in M; [|discriminate]. cbn [bind] in M. apply ok_inj_p in M. subst outs. cbn [List.concat]. rewrite picked_app.
    rewrite <- (firstn_skipn (List.length (select (picked frac a) b)) v). apply assign_app; auto.
    + unfold picked. rewrite map_length. auto.
    + apply firstn_length_le. lia.
    + apply (IH dist); [rewrite skipn_length; lia|exact EM].
Qed.
Theorem C44_processes : forall isrdd frac u permute parts outs, Forall2 (fun a b => List.length a = List.length b) u parts -> (forall x, Permutation (permute x) x) ->
  shuffle_parts isrdd frac u permute parts = Ok outs -> shuffle_parts isrdd frac [List.concat u] permute [List.concat parts] = Ok [List.concat outs].
Proof.
  intros isrdd frac u permute parts outs H PM S0. assert (LC : List.length (List.concat u) = List.length (List.concat parts)). { clear -H. induction H as [|a b u parts L H IH]; cbn; auto. rewrite !app_length. lia. }
  rewrite parts_one by auto. rewrite <- masked_concat by auto. unfold shuffle_parts in S0. fold (picked frac) in S0.
  set (dist := if isrdd then vz else distance). assert (ED : forall x, (if isrdd then vz x else distance x) = dist x) by (intros; unfold dist; destruct isrdd; auto).
  assert (EM : parts_masked isrdd frac u parts = map (fun x => map dist (select (fst x) (snd x))) (combine (map (picked frac) u) parts)) by reflexivity.
  assert (ES : (fun x : list bool * list vec => map (fun p => if isrdd then vz p else distance p) (select (fst x) (snd x))) = (fun x => map dist (select (fst x) (snd x)))) by (unfold dist; destruct isrdd; reflexivity).
  change (fun x : R => Rltb x frac) with (fun x : R => Rltb x frac) in S0. cbv zeta in S0. change (map (map (fun x : R => Rltb x frac)) u) with (map (picked frac) u) in S0. rewrite ES in S0. rewrite EM.
  assert (LM : List.length (permute (List.concat (map (fun x => map dist (select (fst x) (snd x))) (combine (map (picked frac) u) parts)))) = List.length (select (picked frac (List.concat u)) (List.concat parts))).
  { rewrite (Permutation_length (PM _)). rewrite <- EM, masked_concat by auto. apply map_length. }
  rewrite <- LM, firstn_all. rewrite (assign_parts _ frac u parts H dist _ outs); auto. apply Permutation_length, PM.
Qed.
Print Assumptions C44_processes.
(** A null blinded growth rate selects nothing; a blinded growth rate larger than the fiducial one is refused. *)
Lemma assign_none : forall {A B} (f : A -> B -> result A) mask values l, Forall (fun b => b = false) mask -> assign f mask values l = Ok l.
Proof. intros A B f mask. induction mask as [|b mask IH]; intros values [|a l] H; cbn; auto; inversion H; subst; auto. rewrite IH; auto. Qed.
Theorem C44_null_growth : forall fid blind z dtype d u permute l f_fid, floating (cast dtype d) = true -> growth_rate blind None 0 -> growth_rate fid z f_fid -> f_fid <> 0 -> List.length u = List.length l -> Forall (fun x => 0 <= x) u ->
  shuffle fid blind z "pos" dtype u permute (as_pos d l) = Ok (as_pos F8 l).
Proof.
  intros fid blind z dtype d u permute l ff F GB GF NZ L UP. unfold growth_rate in *. unfold shuffle. cbn [String.eqb Ascii.eqb Bool.eqb orb]. rewrite fmt_pos by auto. cbn [bind]. rewrite GB, GF. cbn [bind]. unfold fdiv. destruct (Req_EM_T ff 0); [contradiction|]. cbn [bind].
  replace ((0 / ff) ^ 2) with 0 by (unfold Rdiv; ring). rewrite (proj2 (Rltb_false 1 0)) by lra. rewrite parts_one by auto. rewrite assign_none.
  - cbn [bind List.concat]. rewrite app_nil_r. auto.
  - unfold picked. rewrite Forall_map. eapply Forall_impl; [|exact UP]. intros x X. apply Rltb_false. auto.
Qed.
Print Assumptions C44_null_growth.
Theorem C44_larger_growth : forall fid blind z dtype d u permute l f_blind f_fid, floating (cast dtype d) = true -> growth_rate blind None f_blind -> growth_rate fid z f_fid -> f_fid <> 0 -> 1 < (f_blind / f_fid) ^ 2 ->
  shuffle fid blind z "pos" dtype u permute (as_pos d l) = Err ValueError.
Proof.
  intros fid blind z dtype d u permute l fb ff F GB GF NZ FR. unfold growth_rate in *. unfold shuffle. cbn [String.eqb Ascii.eqb Bool.eqb orb]. rewrite fmt_pos by auto. cbn [bind]. rewrite GB, GF. cbn [bind]. unfold fdiv. destruct (Req_EM_T ff 0); [contradiction|]. cbn [bind].
  rewrite (proj2 (Rltb_true _ _) FR). auto.
Qed.
Print Assumptions C44_larger_growth.
(** When the growth rates agree, every distance is shuffled, instead of none. *)
Theorem C44_equal_growth_refuted : exists fid blind z u permute l l' f, growth_rate blind None f /\ growth_rate fid z f /\ f <> 0 /\ List.length u = List.length l /\ Forall (fun x => 0 <= x < 1) u /\ (forall x, Permutation (permute x) x) /\
  shuffle fid blind z "pos" None u permute (as_pos F8 l) = Ok (as_pos F8 l') /\ l' <> l.
Proof.
  exists (toy_blind 0), (toy_blind 0), None, [1 / 10; 9 / 10], (@rev R), [V 1 0 0; V 0 2 0]. assert (G : growth_rate (toy_blind 0) None (1 / 2)) by reflexivity.
  destruct (C44_cartesian (toy_blind 0) (toy_blind 0) None None F8 [1 / 10; 9 / 10] (@rev R) [V 1 0 0; V 0 2 0] (1 / 2) (1 / 2)) as (l' & E & _ & EA & _ & _); auto; try lra.
  - intros x. apply Permutation_sym. apply Permutation_rev.
  - repeat constructor; intros _ H; unfold vzero in H; injection H; intros; lra.
  - exists l', (1 / 2). split; auto. split; auto. split; [lra|]. split; auto. split; [repeat constructor; lra|]. split; [intros x; apply Permutation_sym; apply Permutation_rev|]. split; auto.
    intros ->. unfold shuffle in E. cbn [String.eqb Ascii.eqb Bool.eqb orb] in E. rewrite fmt_pos in E by auto. cbn [bind] in E. unfold growth_rate in G. rewrite G in E. cbn [bind] in E. rewrite ?G in E. cbn [bind] in E. unfold fdiv in E. destruct (Req_EM_T (1 / 2) 0); [lra|]. cbn [bind] in E.
    cbv zeta in E. replace ((1 / 2 / (1 / 2)) ^ 2) with 1 in E by field. pose proof (proj2 (Rltb_false 1 1) (Rle_refl 1)) as R1. rewrite R1 in E. rewrite parts_one in E by auto. unfold picked in E. cbn [map] in E. assert (R2 : Rltb (1 / 10) 1 = true) by (apply Rltb_true; lra). assert (R3 : Rltb (9 / 10) 1 = true) by (apply Rltb_true; lra). rewrite R2, R3 in E.
    cbn [select map rev app firstn List.length assign] in E. unfold set_distance, fdiv in E. rewrite !distance_vnorm in E.
    assert (N1 : vnorm (V 1 0 0) = 1) by (unfold vnorm, vdot; cbn; replace (1 * 1 + 0 * 0 + 0 * 0) with 1 by ring; apply sqrt_1).
    assert (N2 : vnorm (V 0 2 0) = 2) by (unfold vnorm, vdot; cbn; replace (0 * 0 + 2 * 2 + 0 * 0) with (2 * 2) by ring; apply sqrt_square; lra). rewrite N1, N2 in E. destruct (Req_EM_T 1 0); [lra|]. cbn [bind] in E. destruct (Req_EM_T 2 0); [lra|]. cbn [bind] in E. cbn in E. injection E. intros. lra.
Qed.
Print Assumptions C44_equal_growth_refuted.
Example C44_case : growth_rate (toy_blind 0) None (1 / 2) /\ growth_rate (line_cosmology 1) (Some 1) (1 / 2 / 1) /\ (1 / 2 / (1 / 2 / 1)) ^ 2 <= 1 /\ (forall x : list R, Permutation (rev x) x) /\ Forall (fun x => fst x < 1 -> snd x <> vzero) (combine [1 / 10; 9 / 10] [V 1 0 0; V 0 2 0]) /\
  Forall2 (fun (a : list R) (b : list vec) => List.length a = List.length b) [[1 / 10]; []; [9 / 10]] [[V 1 0 0]; []; [V 0 2 0]].
Proof.
  split; [reflexivity|]. split; [unfold growth_rate, get_from_cosmo, get_sigma8; cbn; unfold fdiv; destruct (Req_EM_T 1 0); [lra|auto]|]. split; [lra|]. split; [intros x; apply Permutation_sym; apply Permutation_rev|]. split; [repeat constructor; intros _ H; unfold vzero in H; injection H; intros; lra|repeat constructor].
Qed.
