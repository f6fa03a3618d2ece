(** C62: redshift errors of tracers. *)
Require Import Reals Lra Lia ZArith String List Bool Sorting.Sorted.
From Verif Require Import Base Cutsky_Model Box_Model Mask_Model Sample_Model Smear_Model Smear_Spec Density_Proof Mask_Proof Smear_Proof Smear_Thm Blind_Thm2 Tracer_Model Tracer_Spec Tracer_Thm.
Import ListNotations.
Open Scope R_scope.

(* ---------- supports ---------- *)
Definition ends (lo hi : ext) : Prop := (exists a b, lo = Fin a /\ hi = Fin b /\ a < b) \/ (lo = MInf /\ hi = PInf).
Definition grid_of (lo hi : ext) (n : nat) : list R := match lo, hi with Fin a, Fin b => linspace a b n | _, _ => linspace 0 1 n end.
Definition support_of (lo hi : ext) (s : R) : R -> ext := match lo, hi with Fin _, Fin _ => Fin | _, _ => fun x => scale_ext s (atanh_ext (2 * x - 1)) end.
Lemma close_refl : forall a, close a a = true.
Proof. intros. unfold close. apply Rleb_true. replace (a - a) with 0 by ring. rewrite Rabs_R0. pose proof (Rabs_pos a). lra. Qed.
Lemma same_ranges_uniform : forall rvs lo hi, ends lo hi -> Forall (fun r => rv_low r = lo /\ rv_high r = hi) rvs -> same_ranges rvs = true.
Proof.
  intros rvs lo hi O F. unfold same_ranges. destruct rvs as [|r0 rvs]; auto. apply forallb_forall. intros r I. rewrite Forall_forall in F. destruct (F r I) as [-> ->]. destruct (F r0 (or_introl eq_refl)) as [-> ->].
  destruct O as [(a & b & -> & -> & _)|[-> ->]]; cbn; auto. rewrite !close_refl. auto.
Qed.
Lemma map_const : forall {A B C} (f : B -> C) (b : B) (l : list A), map f (map (fun _ => b) l) = map (fun _ => f b) l.
Proof. intros. apply map_map. Qed.
Lemma forallb_all : forall {A} (f : A -> bool) l, (forall a, In a l -> f a = true) -> forallb f l = true.
Proof. intros. apply forallb_forall; auto. Qed.
Lemma table_uniform : forall rvs n s lo hi, ends lo hi -> rvs <> [] -> (2 <= n)%nat -> 0 < s -> Forall (fun r => rv_low r = lo /\ rv_high r = hi) rvs ->
  rvs_table rvs n (ByScale s) (same_ranges rvs) = Ok (map (fun _ => grid_of lo hi n) rvs, map (fun _ => map (support_of lo hi s) (grid_of lo hi n)) rvs, support_of lo hi s).
Proof.
  intros rvs n s lo hi O NE N PS F. rewrite (same_ranges_uniform rvs lo hi O F). unfold rvs_table. destruct rvs as [|r0 rest]; [congruence|]. set (rvs := r0 :: rest) in *. rewrite Forall_forall in F.
  assert (I0 : In r0 rvs) by (left; auto). destruct (F r0 I0) as [L0 H0]. cbv zeta. destruct O as [(a & b & -> & -> & _)|[-> ->]].
  - rewrite forallb_all by (intros r I; destruct (F r I) as [-> ->]; auto). cbn [grid_of support_of]. rewrite L0, H0. cbn [fin]. rewrite map_map. auto.
  - replace (forallb (fun r => is_finite (rv_low r) && is_finite (rv_high r)) rvs) with false by (unfold rvs; cbn [forallb]; rewrite L0; auto).
    rewrite L0, H0. cbn [is_finite negb]. rewrite forallb_all by (intros r I; destruct (F r I) as [-> ->]; auto). cbn [andb grid_of support_of]. rewrite map_map. f_equal. f_equal. f_equal. apply map_ext. intros _.
    destruct n as [|[|n]]; [lia|lia|]. set (g := linspace 0 1 (S (S n))). assert (LG : length g = S (S n)) by apply linspace_length.
    rewrite (ends_split g ltac:(lia)) at 2. cbn [map]. rewrite map_app. cbn [map]. unfold g at 2 4. rewrite linspace_first, linspace_last by lia. destruct (atanh_ends s PS) as [-> ->]. auto.
Qed.
Definition ext_lt (a b : ext) : Prop := ext_le a b /\ a <> b.
Lemma atanh_strict : forall s x y, 0 < s -> -1 <= x < y -> y <= 1 -> ext_lt (scale_ext s (atanh_ext x)) (scale_ext s (atanh_ext y)).
Proof.
  intros s x y S H Y. split; [apply atanh_mono; lra|]. unfold atanh_ext. destruct (Req_EM_T x 1); [lra|]. destruct (Req_EM_T y (-1)); [lra|]. destruct (Req_EM_T x (-1)); destruct (Req_EM_T y 1); cbn.
  - destruct (Rlt_dec 0 s); [discriminate|lra].
  - destruct (Rlt_dec 0 s); [|lra]. destruct (Rlt_dec (Rabs y) 1); cbn; discriminate.
  - destruct (Rlt_dec 0 s); [|lra]. destruct (Rlt_dec (Rabs x) 1); cbn; discriminate.
  - assert (AX : Rabs x < 1) by (apply Rabs_def1; lra). assert (AY : Rabs y < 1) by (apply Rabs_def1; lra). destruct (Rlt_dec (Rabs x) 1); [|lra]. destruct (Rlt_dec (Rabs y) 1); [|lra]. cbn. intros E. injection E as E.
    assert (LT : ln ((1 + x) / (1 - x)) < ln ((1 + y) / (1 - y))).
    { apply ln_increasing; [apply Rdiv_lt_0_compat; lra|]. apply Rmult_lt_reg_r with ((1 - x) * (1 - y)); [nra|]. replace ((1 + x) / (1 - x) * ((1 - x) * (1 - y))) with ((1 + x) * (1 - y)) by (field; lra).
      replace ((1 + y) / (1 - y) * ((1 - x) * (1 - y))) with ((1 + y) * (1 - x)) by (field; lra). lra. }
    nra.
Qed.
Lemma linspace_rising : forall a b n, a < b -> (2 <= n)%nat -> rising (linspace a b n).
Proof.
  intros a b n L N i j H. rewrite linspace_length in H. rewrite !linspace_nth by lia. assert (INR i / INR (n - 1) < INR j / INR (n - 1)); [|nra].
  apply Rmult_lt_compat_r; [apply Rinv_0_lt_compat; apply lt_0_INR; lia|apply lt_INR; lia].
Qed.
Lemma grid_length : forall lo hi n, length (grid_of lo hi n) = n.
Proof. intros [x| | |] [y| | |] n; apply linspace_length. Qed.
Lemma grid_rising : forall lo hi n, ends lo hi -> (2 <= n)%nat -> rising (grid_of lo hi n).
Proof. intros lo hi n [(a & b & -> & -> & L)|[-> ->]] N; apply linspace_rising; auto; lra. Qed.
Lemma ext_le_trans : forall a b c, ext_le a b -> ext_le b c -> ext_le a c.
Proof. intros [a| | |] [b| | |] [c| | |]; cbn; auto; try tauto; lra. Qed.
Lemma grid_support : forall lo hi n s, ends lo hi -> (2 <= n)%nat -> 0 < s ->
  support_of lo hi s (nth 0 (grid_of lo hi n) 0) = lo /\ support_of lo hi s (last (grid_of lo hi n) 0) = hi /\
  forall i j, (i < j < n)%nat -> ext_lt (support_of lo hi s (nth i (grid_of lo hi n) 0)) (support_of lo hi s (nth j (grid_of lo hi n) 0)).
Proof.
  intros lo hi n s [(a & b & -> & -> & L)|[-> ->]] N S; cbn [grid_of support_of].
  - rewrite linspace_first, linspace_last by auto. split; auto. split; auto. intros i j H. pose proof (linspace_rising a b n L N i j ltac:(rewrite linspace_length; auto)) as Q. split; [cbn; lra|]. intros E. injection E as E. lra.
  - rewrite linspace_first, linspace_last by auto. destruct (atanh_ends s S) as [-> ->]. split; auto. split; auto. intros i j H.
    pose proof (linspace_rising 0 1 n ltac:(lra) N i j ltac:(rewrite linspace_length; auto)) as Q. destruct (linspace_mono 0 1 n i j ltac:(lra) N ltac:(lia)) as [[Q1 _] Q2]. apply atanh_strict; auto; lra.
Qed.
Lemma grid_in : forall lo hi n s i, ends lo hi -> (2 <= n)%nat -> 0 < s -> (i < n)%nat -> ext_le lo (support_of lo hi s (nth i (grid_of lo hi n) 0)) /\ ext_le (support_of lo hi s (nth i (grid_of lo hi n) 0)) hi.
Proof.
  intros lo hi n s i O N PS I. destruct (grid_support lo hi n s O N PS) as (E0 & E1 & M). set (f := fun k => support_of lo hi s (nth k (grid_of lo hi n) 0)) in *. change (ext_le lo (f i) /\ ext_le (f i) hi).
  assert (F0 : f 0%nat = lo) by exact E0. assert (F1 : f (n - 1)%nat = hi) by (rewrite last_nth, grid_length in E1; exact E1). assert (RF : forall x, ext_lt x x -> False) by (intros x [_ C]; congruence).
  split.
  - destruct i; [rewrite <- F0 at 1|rewrite <- F0; apply (M 0%nat (S i)); lia]. destruct O as [(a & b & -> & -> & L)|[-> ->]]; rewrite F0; cbn; auto; lra.
  - destruct (Nat.eq_dec i (n - 1)) as [->|]; [|rewrite <- F1; apply (M i (n - 1)%nat); lia]. rewrite F1. destruct O as [(a & b & -> & -> & L)|[-> ->]]; cbn; auto; lra.
Qed.

(* ---------- the interpolation can be built ---------- *)
Lemma rising_strong : forall l, rising l <-> StronglySorted Rlt l.
Proof.
  intros l. split.
  - induction l as [|a l IH]; intros H; [constructor|]. constructor; [apply IH; intros i j L; apply (H (S i) (S j)); cbn; lia|]. apply Forall_forall. intros x I. destruct (In_nth _ _ 0 I) as (k & L & <-). apply (H 0%nat (S k)). cbn. lia.
  - induction 1 as [|a l _ IH F]; intros i j L; cbn in L; [lia|]. destruct j as [|j]; [lia|]. destruct i as [|i]; cbn [nth]; [|apply IH; lia]. rewrite Forall_forall in F. apply F. apply nth_In. lia.
Qed.
Lemma strong_select : forall mask l, StronglySorted Rlt l -> StronglySorted Rlt (select_by mask l).
Proof.
  induction mask as [|b mask IH]; intros [|a l] H; cbn; try constructor. inversion H as [|? ? H1 H2]; subst. destruct b; auto. constructor; auto. apply Forall_forall. intros x I. apply select_In in I. destruct I as (i & _ & E).
  apply nth_error_In in E. rewrite Forall_forall in H2. auto.
Qed.
Definition usable (c : list R) : Prop := rising c /\ exists i k, (i < k < length c)%nat /\ tiny < nth i c 0 /\ nth k c 0 < 1 - tiny.
Lemma select_two : forall mask (l : list R) i k, length mask = length l -> (i < k < length l)%nat -> nth i mask false = true -> nth k mask false = true -> (2 <= length (select_by mask l))%nat.
Proof.
  induction mask as [|b mask IH]; intros [|a l] i k L H M1 M2; cbn [length] in *; try lia. injection L as L. destruct k as [|k]; [lia|]. destruct i as [|i].
  - cbn in M1. subst b. cbn. cbn in M2. assert (IN : In (nth k l 0) (select_by mask l)).
    { apply select_In_conv with k; [|apply nth_error_nth'; lia]. rewrite <- M2. apply nth_error_nth'. lia. }
    destruct (select_by mask l); [destruct IN|cbn; lia].
  - cbn [nth] in *. specialize (IH l i k L ltac:(lia) M1 M2). cbn. destruct b; cbn; lia.
Qed.
Lemma ppf_column_ok : forall sp u dz c, cubic_spline sp -> length dz = length c -> usable c -> exists t, ppf_column sp u dz c = Ok t /\ length t = length u.
Proof.
  intros sp u dz c (S1 & S2 & S3) L (RC & i & k & H & T1 & T2). unfold ppf_column. cbv zeta. set (mask := map _ c). assert (LM : length mask = length c) by apply map_length.
  assert (MN : forall j, (j < length c)%nat -> tiny < nth j c 0 -> nth j c 0 < 1 - tiny -> nth j mask false = true).
  { intros j J A1 A2. unfold mask. rewrite nth_map with (d := 0) by auto. apply andb_true_intro. split; apply Rltb_true; auto. }
  pose proof (RC i k H) as RIK. pose proof (select_two mask c i k LM H (MN i ltac:(lia) T1 ltac:(lra)) (MN k ltac:(lia) ltac:(lra) T2)) as TWO.
  destruct (S2 (padded mask c 0 1) (padded mask dz (hd 0 dz) (last dz 0))) as [f E].
  - apply padded_length. auto.
  - unfold padded. cbn [length]. rewrite app_length. cbn. lia.
  - apply rising_strong. unfold padded. assert (B : forall x, In x (select_by mask c) -> tiny < x < 1 - tiny).
    { intros x I. apply select_In in I. destruct I as (j & E1 & E2). unfold mask in E1. rewrite nth_error_map, E2 in E1. cbn in E1. injection E1 as E1. apply andb_prop in E1. rewrite !Rltb_true in E1. auto. }
    pose proof tiny_small. constructor.
    + apply sorted_app; [apply strong_select, rising_strong; auto|repeat constructor|]. intros a b IA [<-|[]]. specialize (B a IA). lra.
    + apply Forall_forall. intros x I. apply in_app_or in I. destruct I as [I|[<-|[]]]; [specialize (B x I)|]; lra.
  - rewrite E. cbn [bind]. eexists. split; [reflexivity|]. apply map_length.
Qed.
Lemma set_interp_ok : forall sp dz z cdf support transform n g, cubic_spline sp -> (4 <= n)%nat -> length g = n -> dz = map (fun _ => g) cdf -> Forall (fun c => length c = n /\ usable c) cdf ->
  length z = length cdf -> (2 <= length z)%nat -> rising z -> exists m, set_interp sp (Smear dz z cdf [] [] support transform) = Ok m.
Proof.
  intros sp dz z cdf support transform n g SP N LG -> F LZ L2 RZ. unfold set_interp. cbn [m_dz m_z m_cdf m_support m_transform]. assert (HD : hd [] (map (fun _ => g) cdf) = g) by (destruct cdf; [cbn in LZ; lia|auto]).
  rewrite HD, LG. set (u := linspace 0 1 n). assert (LU : length u = n) by apply linspace_length. rewrite Forall_forall in F.
  destruct (map_result_all (fun c => ppf_column sp u (fst c) (snd c)) (combine (map (fun _ => g) cdf) cdf)) as [table E].
  { intros [d c] I. cbn [fst snd]. pose proof (in_combine_l _ _ _ _ I) as I1. apply in_combine_r in I. apply in_map_iff in I1. destruct I1 as (? & <- & _). destruct (F c I) as [LC UC].
    destruct (ppf_column_ok sp u g c SP ltac:(lia) UC) as (t & E & _). eauto. }
  rewrite E. cbn [bind]. pose proof (map_result_forall2 _ _ _ E) as FE. pose proof (f2_length _ _ _ FE) as LE. rewrite combine_length, map_length, Nat.min_id in LE.
  destruct (map_result_all (sp u) table) as [fs E2].
  { intros t I. destruct SP as (S1 & S2 & S3). apply S2; [|rewrite LU; auto|apply linspace_rising; [lra|lia]]. destruct (In_nth _ _ [] I) as (k & LK & <-).
    pose proof (forall2_nth _ _ _ ([], []) [] k FE ltac:(rewrite combine_length, map_length; lia)) as Q. cbv beta in Q. apply ppf_column_inv in Q. destruct Q as [Q _]. auto. }
  rewrite E2. cbn [bind]. rewrite (proj2 (Nat.leb_le 2 (length z)) L2). rewrite (proj2 (Nat.eqb_eq (length z) (length table)) ltac:(lia)). rewrite (proj1 (rising_increasing z) RZ). cbn. eauto.
Qed.

(* ---------- distributions of a table ---------- *)
Lemma merge_in : forall files t r, merge files = Ok t -> In r t -> exists file, In file files /\ In r file.
Proof.
  intros files t r H I. unfold merge in H. destruct files as [|f files]; [discriminate|]. apply (merge_ok _ _ _ H r) in I. destruct I as [(i & L & I & _)|[[] _]]. exists (nth i (f :: files) []). split; auto. apply nth_In; auto.
Qed.
Lemma rvs_inv : forall read w tracer fn unc z b g w1 w2 tr, tracer_rvs read w tracer fn unc = Ok (z, (b, g), (w1, w2), tr) -> all_sound read tracer unc ->
  exists t fits, z = map r_z t /\ map_result (row_laws w tracer unc) t = Ok fits /\ b = map (fun f => fst (fst f)) fits /\ g = map (fun f => snd (fst f)) fits /\ w1 = map snd fits /\
    w2 = map (fun la => 1 - la) (map snd fits) /\ tr = dztransform tracer unc /\ Forall (sound_row tracer unc) t.
Proof.
  intros read w tracer fn unc z b g w1 w2 tr H SO. unfold tracer_rvs in H. destruct (match fn with None => _ | Some fn => _ end) as [fn'|]; [|discriminate]. cbn [bind] in H.
  destruct (map_result read fn') as [files|] eqn:E1; [|discriminate]. cbn [bind] in H. destruct (merge files) as [t|] eqn:E2; [|discriminate]. cbn [bind] in H.
  destruct (map_result (row_laws w tracer unc) t) as [fits|] eqn:E3; [|discriminate]. cbn [bind] in H. cbv zeta in H. injection H as <- <- <- <- <- <-.
  exists t, fits. repeat (split; [auto; fail|]). apply Forall_forall. intros r I. destruct (merge_in _ _ _ E2 I) as (file & IF & IR). apply map_result_forall2 in E1.
  assert (Q : exists name, read name = Ok file). { clear - E1 IF. induction E1 as [|? ? ? ? E1 F IH]; [destruct IF|]. destruct IF as [<-|IF]; eauto. }
  destruct Q as [name EN]. apply (SO name file); auto.
Qed.
Lemma tracer_ends : forall w tracer unc, scipy_laws w -> known tracer unc -> exists lo hi s, ends lo hi /\ dzscale tracer unc = Ok s /\ 0 < s /\
  (forall r b g la, sound_row tracer unc r -> row_laws w tracer unc r = Ok (b, g, la) -> (strict_rv b /\ rv_low b = lo /\ rv_high b = hi) /\ (strict_rv g /\ rv_low g = lo /\ rv_high g = hi) /\ 0 <= la <= 1) /\
  ((quasar_statistical tracer unc /\ lo = MInf /\ hi = PInf /\ s = 5000) \/ (~ quasar_statistical tracer unc /\ truncation tracer unc s /\ lo = Fin (- s) /\ hi = Fin s)).
Proof.
  intros w tracer unc (W1 & W2 & W3 & W4) K.
  assert (T : forall s r b g la, 0 < s -> ~ quasar_statistical tracer unc -> sound_row tracer unc r -> Ok (truncated w s r) = Ok (b, g, la) ->
    (strict_rv b /\ rv_low b = Fin (- s) /\ rv_high b = Fin s) /\ (strict_rv g /\ rv_low g = Fin (- s) /\ rv_high g = Fin s) /\ 0 <= la <= 1).
  { intros s r b g la PS NQ SR E. unfold truncated in E. unfold sound_row in SR. destruct (r_fit r) as [[[[f1 f2] f3] f4] f5]. destruct SR as (SL & _ & SN). destruct (SN NQ) as [P1 P3].
    injection E as <- <- <-. split; [apply W3; lra|]. split; [apply W4; lra|auto]. }
  destruct K as [-> |[-> |[-> |(-> & [-> | ->])]]]; unfold row_laws, dzscale; cbn [String.eqb Ascii.eqb Bool.eqb orb].
  - exists (Fin (- 400)), (Fin 400), 400. assert (NQ : ~ quasar_statistical "LRG" unc) by (intros [C _]; discriminate). split; [left; exists (- 400), 400; repeat split; lra|]. split; auto. split; [lra|]. split; [intros r b g la SR; apply T; auto; lra|].
    right. repeat split; auto. right; left; auto.
  - exists (Fin (- 150)), (Fin 150), 150. assert (NQ : ~ quasar_statistical "ELG" unc) by (intros [C _]; discriminate). split; [left; exists (- 150), 150; repeat split; lra|]. split; auto. split; [lra|]. split; [intros r b g la SR; apply T; auto; lra|].
    right. repeat split; auto. right; right; auto.
  - exists (Fin (- 150)), (Fin 150), 150. assert (NQ : ~ quasar_statistical "BGS" unc) by (intros [C _]; discriminate). split; [left; exists (- 150), 150; repeat split; lra|]. split; auto. split; [lra|]. split; [intros r b g la SR; apply T; auto; lra|].
    right. repeat split; auto. right; right; auto.
  - exists MInf, PInf, 5000. split; [right; auto|]. split; auto. split; [lra|]. split.
    + intros r b g la SR E. unfold sound_row in SR. destruct (r_fit r) as [[[[f1 f2] f3] f4] f5]. destruct SR as (SL & SQ & _). destruct (SQ (conj eq_refl eq_refl)) as [P1 P3].
      injection E as <- <- <-. pose proof (sqrt_lt_R0 2 ltac:(lra)). split; [apply W1|split; [apply W2|auto]]; apply Rdiv_lt_0_compat; auto.
    + left. repeat split.
  - exists (Fin (- 2000)), (Fin 2000), 2000. assert (NQ : ~ quasar_statistical "QSO" "clustering") by (intros [_ C]; discriminate). split; [left; exists (- 2000), 2000; repeat split; lra|]. split; auto. split; [lra|]. split; [intros r b g la SR; apply T; auto; lra|].
    right. repeat split; auto. left; auto.
Qed.
Lemma combine_map_const : forall {A B} (l : list A) (b : B), combine l (map (fun _ => b) l) = map (fun a => (a, b)) l.
Proof. induction l as [|a l IH]; intros b; cbn; [auto|rewrite IH; auto]. Qed.

(* ---------- average of two ---------- *)
Definition mixed (m1 m2 : smear) (w1 w2 : list R) (nz n : nat) : list (list R) :=
  map (fun j => map (fun i => nth j w1 0 * nth i (nth j (m_cdf m1) []) 0 + nth j w2 0 * nth i (nth j (m_cdf m2) []) 0) (seq 0 n)) (seq 0 nz).
Lemma average_two : forall sp m1 m2 w1 w2 nz n, length (m_cdf m1) = nz -> Forall (fun c => length c = n) (m_cdf m1) -> (forall j, (j < nz)%nat -> nth j w1 0 + nth j w2 0 = 1) ->
  average sp [m1; m2] (Some [w1; w2]) =
  if forallb (same_tables m1) [m1; m2] then set_interp sp (Smear (m_dz m1) (m_z m1) (mixed m1 m2 w1 w2 nz n) [] [] (m_support m1) (m_transform m1)) else Err ValueError.
Proof.
  intros sp m1 m2 w1 w2 nz n LC FC W. unfold average. rewrite LC. cbv zeta. set (sums := weight_sums nz [w1; w2]).
  assert (LS : length sums = nz) by (unfold sums, weight_sums; rewrite map_length, seq_length; auto).
  assert (SN : forall j, (j < nz)%nat -> nth j sums 0 = 1).
  { intros j J. unfold sums, weight_sums. rewrite nth_map with (d := 0%nat) by (rewrite seq_length; auto). rewrite seq_nth by auto. cbn [map Nat.add]. unfold Rsum. cbn [fold_right]. rewrite <- (W j J). ring. }
  assert (EX : existsb (fun s => Reqb s 0) sums = false).
  { destruct (existsb (fun s => Reqb s 0) sums) eqn:E; auto. apply existsb_exists in E. destruct E as (x & I & E). apply Reqb_true in E. destruct (In_nth _ _ 0 I) as (j & J & E1). rewrite SN in E1 by lia. lra. }
  rewrite EX. destruct (forallb _ _); auto. f_equal. f_equal. unfold mixed. apply map_ext_in. intros j J. apply in_seq in J. rewrite Forall_forall in FC. rewrite (FC (nth j (m_cdf m1) [])) by (apply nth_In; lia).
  apply map_ext_in. intros i I. unfold mean_cdf. cbn [map combine fst snd]. unfold Rsum. cbn [fold_right]. rewrite SN by lia. field.
Qed.

(** The whole of a constructed object. *)
Lemma tracer_parts : forall sp read w tracer fn unc z b g w1 w2 tr, scipy_laws w -> known tracer unc -> all_sound read tracer unc -> tracer_rvs read w tracer fn unc = Ok (z, (b, g), (w1, w2), tr) -> b <> [] ->
  exists lo hi s, let grid := grid_of lo hi dzsize in let sup := support_of lo hi s in
  let col r := map (fun d => rv_cdf r (sup d)) grid in
  ends lo hi /\ 0 < s /\ length b = length z /\ length g = length z /\ (forall j, nth j w1 0 + nth j w2 0 = 1 \/ (length z <= j)%nat) /\ (forall j, 0 <= nth j w1 0 <= 1) /\ tr = dztransform tracer unc /\
  Forall (fun r => strict_rv r /\ rv_low r = lo /\ rv_high r = hi) b /\ Forall (fun r => strict_rv r /\ rv_low r = lo /\ rv_high r = hi) g /\
  ((quasar_statistical tracer unc /\ lo = MInf /\ hi = PInf /\ s = 5000) \/ (~ quasar_statistical tracer unc /\ truncation tracer unc s /\ lo = Fin (- s) /\ hi = Fin s)) /\
  tracer_smearing sp read w tracer fn unc =
    (do m1 <- set_interp sp (Smear (map (fun _ => grid) b) z (map col b) [] [] sup tr);
     do m2 <- set_interp sp (Smear (map (fun _ => grid) g) z (map col g) [] [] sup tr);
     average sp [m1; m2] (Some [w1; w2])).
Proof.
  intros sp read w tracer fn unc z b g w1 w2 tr SL K SO H NB. destruct (tracer_ends w tracer unc SL K) as (lo & hi & s & EN & ES & PS & EL & EC).
  pose proof (rvs_inv _ _ _ _ _ _ _ _ _ _ _ H SO) as (t & fits & EZ & EF & EB & EG & E1 & E2 & ET & FS). pose proof (map_result_forall2 _ _ _ EF) as F2. pose proof (f2_length _ _ _ F2) as LF.
  exists lo, hi, s. cbv zeta.
  assert (P : Forall (fun f => (strict_rv (fst (fst f)) /\ rv_low (fst (fst f)) = lo /\ rv_high (fst (fst f)) = hi) /\ (strict_rv (snd (fst f)) /\ rv_low (snd (fst f)) = lo /\ rv_high (snd (fst f)) = hi) /\ 0 <= snd f <= 1) fits).
  { clear - F2 FS EL. induction F2 as [|r [[b g] la] t fits R0 F IH]; constructor; inversion FS; subst; auto. cbn [fst snd]. apply (EL r); auto. }
  assert (FB : Forall (fun r => strict_rv r /\ rv_low r = lo /\ rv_high r = hi) b) by (subst b; rewrite Forall_map; revert P; apply Forall_impl; tauto).
  assert (FG : Forall (fun r => strict_rv r /\ rv_low r = lo /\ rv_high r = hi) g) by (subst g; rewrite Forall_map; revert P; apply Forall_impl; tauto).
  split; auto. split; auto. split; [subst; rewrite !map_length; auto|]. split; [subst; rewrite !map_length; auto|]. split.
  { intros j. destruct (le_lt_dec (length z) j) as [L|L]; [right; auto|left]. subst w1 w2 z. rewrite map_length in L. rewrite (nth_map (fun la => 1 - la) (map snd fits) j 0 0) by (rewrite map_length; lia). ring. }
  split. { intros j. destruct (le_lt_dec (length fits) j) as [L|L]; [rewrite nth_overflow by (subst w1; rewrite map_length; auto); lra|]. subst w1. rewrite Forall_forall in P.
    assert (IN : In (nth j (map snd fits) 0) (map snd fits)) by (apply nth_In; rewrite map_length; auto). apply in_map_iff in IN. destruct IN as (f & <- & IN). apply (P f IN). }
  split; auto. split; auto. split; auto. split; auto. unfold tracer_smearing. rewrite H. cbn [bind]. rewrite ES. cbn [bind]. assert (N : (2 <= dzsize)%nat) by (unfold dzsize; lia).
  assert (NG : g <> []) by (subst b g; destruct fits; [cbn in NB; congruence|discriminate]).
  assert (LB : Forall (fun r => rv_low r = lo /\ rv_high r = hi) b) by (revert FB; apply Forall_impl; tauto). assert (LG : Forall (fun r => rv_low r = lo /\ rv_high r = hi) g) by (revert FG; apply Forall_impl; tauto).
  unfold rvs_smear. rewrite (table_uniform b dzsize s lo hi EN NB N PS LB), (table_uniform g dzsize s lo hi EN NG N PS LG). cbn [bind]. rewrite !combine_map_const, !map_map. cbn [fst snd].
  assert (Q : forall l, map (fun x => map (rv_cdf x) (map (support_of lo hi s) (grid_of lo hi dzsize))) l = map (fun r => map (fun d => rv_cdf r (support_of lo hi s d)) (grid_of lo hi dzsize)) l) by (intros l; apply map_ext; intros r; apply map_map).
  rewrite !Q. auto.
Qed.

(** Tabulated velocities. *)
Lemma node_support : forall tracer unc lo hi s i, ((quasar_statistical tracer unc /\ lo = MInf /\ hi = PInf /\ s = 5000) \/ (~ quasar_statistical tracer unc /\ truncation tracer unc s /\ lo = Fin (- s) /\ hi = Fin s)) ->
  inner i -> (i < dzsize)%nat /\ exists v, node tracer unc i v /\ support_of lo hi s (nth i (grid_of lo hi dzsize) 0) = Fin v.
Proof.
  intros tracer unc lo hi s i H [I0 I1]. assert (NN : INR (dzsize - 1) = 9999) by (unfold dzsize; rewrite INR_IZR_INZ; f_equal; lia). assert (L : (i < dzsize)%nat) by (apply INR_lt; apply Rlt_trans with 9999; auto; rewrite <- NN; apply lt_INR; unfold dzsize; lia).
  split; auto. destruct H as [(Q & -> & -> & ->)|(NQ & T & -> & ->)]; cbn [grid_of support_of]; rewrite linspace_nth, NN by auto.
  - exists (5000 / 2 * ln (INR i / (9999 - INR i))). split; [left; auto|]. replace (2 * (0 + (1 - 0) * (INR i / 9999)) - 1) with (2 * INR i / 9999 - 1) by field.
    assert (B : -1 < 2 * INR i / 9999 - 1 < 1) by lra. unfold atanh_ext. destruct (Req_EM_T _ 1); [lra|]. destruct (Req_EM_T _ (-1)); [lra|]. destruct (Rlt_dec _ 1) as [_|C]; [|exfalso; apply C; apply Rabs_def1; lra].
    cbn [scale_ext]. f_equal. replace ((1 + (2 * INR i / 9999 - 1)) / (1 - (2 * INR i / 9999 - 1))) with (INR i / (9999 - INR i)) by (field; lra). field.
  - exists (s * (2 * INR i / 9999 - 1)). split; [right; exists s; auto|]. f_equal. field.
Qed.
Lemma node_unique : forall tracer unc i v v', node tracer unc i v -> node tracer unc i v' -> v = v'.
Proof.
  assert (T : forall tracer unc b b', truncation tracer unc b -> truncation tracer unc b' -> b = b').
  { intros tracer unc b b' [(-> & -> & ->)|[(-> & ->)|([-> | ->] & ->)]] [(C & D & ->)|[(C & ->)|([C|C] & ->)]]; auto; discriminate. }
  intros tracer unc i v v' [[Q ->]|(b & Tb & ->)] [[Q' ->]|(b' & Tb' & ->)]; auto.
  - exfalso. destruct Q as [-> ->]. destruct Tb' as [(_ & C & _)|[(C & _)|([C|C] & _)]]; discriminate.
  - exfalso. destruct Q' as [-> ->]. destruct Tb as [(_ & C & _)|[(C & _)|([C|C] & _)]]; discriminate.
  - rewrite (T _ _ _ _ Tb Tb'). auto.
Qed.

(** At each tabulated redshift and velocity, the cumulative distribution is the mixture. *)
Theorem C62_mixture : forall sp read w tracer fn unc z b g w1 w2 tr m, scipy_laws w -> known tracer unc -> all_sound read tracer unc ->
  tracer_rvs read w tracer fn unc = Ok (z, (b, g), (w1, w2), tr) -> tracer_smearing sp read w tracer fn unc = Ok m ->
  m_z m = z /\ length (m_cdf m) = length z /\ length (m_dz m) = length z /\
  forall j, (j < length z)%nat -> proper_cdf (nth j (m_cdf m) []) /\ INR (length (nth j (m_cdf m) [])) = 10000 /\
    forall i, inner i -> exists v, node tracer unc i v /\ m_support m (nth i (nth j (m_dz m) []) 0) = Fin v /\
      nth i (nth j (m_cdf m) []) 0 = nth j w1 0 * rv_cdf (nth j b no_law) (Fin v) + nth j w2 0 * rv_cdf (nth j g no_law) (Fin v).
Proof.
  intros sp read w tracer fn unc z b g w1 w2 tr m SL K SO H HM. destruct b as [|b0 brest] eqn:EB0.
  { exfalso. unfold tracer_smearing in HM. rewrite H in HM. cbn [bind] in HM. destruct (dzscale tracer unc); [|discriminate]. cbn [bind] in HM. unfold rvs_smear at 1 in HM. cbn [rvs_table bind] in HM. discriminate. }
  rewrite <- EB0 in *. assert (NB : b <> []) by (subst b; discriminate). clear EB0.
  destruct (tracer_parts sp read w tracer fn unc z b g w1 w2 tr SL K SO H NB) as (lo & hi & s & EN & PS & LB & LG & W & WR & ET & FB & FG & EC & EQ). rewrite EQ in HM.
  set (grid := grid_of lo hi dzsize) in *. set (sup := support_of lo hi s) in *. set (col := fun r => map (fun d => rv_cdf r (sup d)) grid) in *. assert (N : (2 <= dzsize)%nat) by (unfold dzsize; lia).
  assert (LGR : length grid = dzsize) by apply grid_length. assert (LCOL : forall r, length (col r) = dzsize) by (intros r; unfold col; rewrite map_length; auto).
  assert (NCOL : forall r i, (i < dzsize)%nat -> nth i (col r) 0 = rv_cdf r (sup (nth i grid 0))) by (intros r i I; unfold col; apply (nth_map (fun d => rv_cdf r (sup d))); lia).
  destruct (set_interp sp (Smear _ z (map col b) _ _ _ _)) as [m1|] eqn:E1; [|discriminate]. cbn [bind] in HM.
  destruct (set_interp sp (Smear _ z (map col g) _ _ _ _)) as [m2|] eqn:E2; [|discriminate]. cbn [bind] in HM.
  apply set_interp_inv in E1. cbv zeta in E1. destruct E1 as (ED & EZ & ECD & ES & ETR & _). cbn [m_dz m_z m_cdf m_support m_transform] in *.
  apply set_interp_inv in E2. cbv zeta in E2. destruct E2 as (ED2 & EZ2 & ECD2 & ES2 & ETR2 & _). cbn [m_dz m_z m_cdf m_support m_transform] in *.
  rewrite (average_two sp m1 m2 w1 w2 (length z) dzsize) in HM.
  2:{ rewrite ECD, map_length. auto. }
  2:{ rewrite ECD, Forall_map. apply Forall_forall. auto. }
  2:{ intros j J. destruct (W j) as [|]; [auto|lia]. }
  destruct (forallb _ _) in HM; [|discriminate]. apply set_interp_inv in HM. cbv zeta in HM. destruct HM as (MD & MZ & MC & MS & MT & _). cbn [m_dz m_z m_cdf m_support m_transform] in *.
  assert (VAL : forall j i, (j < length z)%nat -> (i < dzsize)%nat -> nth i (nth j (m_cdf m) []) 0 = nth j w1 0 * rv_cdf (nth j b no_law) (sup (nth i grid 0)) + nth j w2 0 * rv_cdf (nth j g no_law) (sup (nth i grid 0))).
  { intros j i J I. rewrite MC. unfold mixed. rewrite nth_map with (d := 0%nat) by (rewrite seq_length; auto). rewrite seq_nth by auto. cbn [Nat.add].
    rewrite nth_map with (d := 0%nat) by (rewrite seq_length; auto). rewrite seq_nth by auto. cbn [Nat.add]. rewrite ECD, ECD2. rewrite (nth_map col b j no_law) by lia. rewrite (nth_map col g j no_law) by lia. rewrite !NCOL by auto. auto. }
  assert (LJ : forall j, (j < length z)%nat -> length (nth j (m_cdf m) []) = dzsize).
  { intros j J. rewrite MC. unfold mixed. rewrite nth_map with (d := 0%nat) by (rewrite seq_length; auto). rewrite map_length, seq_length. auto. }
  assert (GJ : forall j, (j < length z)%nat -> nth j (m_dz m) [] = grid). { intros j J. rewrite MD, ED. apply (nth_map (fun _ : rv => grid) b j no_law). lia. }
  split; [congruence|]. split; [rewrite MC; unfold mixed; rewrite map_length, seq_length; auto|]. split; [rewrite MD, ED, map_length; auto|].
  intros j J. pose proof (grid_support lo hi dzsize s EN N PS) as (G0 & G1 & GM). fold grid in G0, G1, GM. fold sup in G0, G1, GM.
  rewrite Forall_forall in FB, FG. destruct (FB (nth j b no_law) ltac:(apply nth_In; lia)) as ([(B0 & B1 & BM & _) _] & BL & BH). destruct (FG (nth j g no_law) ltac:(apply nth_In; lia)) as ([(A0 & A1 & AM & _) _] & AL & AH).
  assert (W1 : nth j w1 0 + nth j w2 0 = 1) by (destruct (W j) as [|]; [auto|lia]). pose proof (WR j) as WJ. split; [|split].
  - split; [rewrite LJ by auto; auto|]. split; [rewrite VAL by (auto; lia); rewrite G0; rewrite <- BL at 1; rewrite <- AL; rewrite B0, A0; ring|]. split.
    + rewrite last_nth, LJ, VAL by (auto; lia). rewrite last_nth, LGR in G1. rewrite G1. rewrite <- BH at 1. rewrite <- AH. rewrite B1, A1. lra.
    + rewrite LJ by auto. intros i k IK. rewrite !VAL by (auto; lia). destruct (Nat.eq_dec i k) as [->|NE]; [lra|]. destruct (GM i k ltac:(lia)) as [GL _]. specialize (BM _ _ GL). specialize (AM _ _ GL). nra.
  - rewrite LJ by auto. unfold dzsize. rewrite INR_IZR_INZ. rewrite Z2Nat.id by lia. reflexivity.
  - intros i I. destruct (node_support tracer unc lo hi s i EC I) as (L & v & NV & SV). fold grid in SV. fold sup in SV. exists v. split; auto. split; [rewrite GJ by auto; congruence|]. rewrite VAL by auto. rewrite SV. auto.
Qed.
Print Assumptions C62_mixture.

(* ---------- construction ---------- *)
Lemma close_ext_refl : forall x, x <> NaN -> close_ext x x = true.
Proof. intros x H. destruct x; try reflexivity; [apply close_refl|exfalso; auto]. Qed.
Lemma allclose_refl : forall {A} (c : A -> A -> bool) l, (forall a, In a l -> c a a = true) -> allclose c l l = true.
Proof.
  intros A c l H. unfold allclose. rewrite Nat.eqb_refl. cbn. apply forallb_forall. intros [x y] I. cbn. assert (E : x = y) by (clear H; induction l as [|a l IH]; [destruct I|]; destruct I as [E|I]; [congruence|auto]). subst y. apply H. apply in_combine_l in I. auto.
Qed.
Lemma interior_in : forall (l : list R) x, In x (interior l) -> In x l.
Proof.
  intros l x I. unfold interior in I. assert (Q : forall m : list R, In x (removelast m) -> In x m). { induction m as [|a m IH]; auto. cbn. destruct m; [intros []|]. intros [<-|J]; [left; auto|right; apply IH; auto]. }
  apply Q in I. destruct l; [destruct I|right; auto].
Qed.
Lemma same_tables_ok : forall m1 m2, m_dz m1 = m_dz m2 -> m_support m1 = m_support m2 -> m_transform m1 = m_transform m2 -> (forall d x, In d (m_dz m1) -> In x d -> m_support m1 x <> NaN) ->
  (forall z x, m_transform m1 z (Fin x) <> NaN) -> same_tables m1 m2 = true.
Proof.
  intros m1 m2 E1 E2 E3 S1 S2. unfold same_tables. rewrite <- E1, <- E2, <- E3. apply andb_true_intro. split; [apply andb_true_intro; split|].
  - apply allclose_refl. intros l _. apply allclose_refl. intros; apply close_refl.
  - apply allclose_refl. intros x I. apply close_ext_refl. apply in_flat_map in I. destruct I as (d & ID & I). apply in_map_iff in I. destruct I as (y & <- & I). apply (S1 d); auto. apply interior_in; auto.
  - apply allclose_refl. intros x I. apply close_ext_refl. apply in_map_iff in I. destruct I as ([z y] & <- & I). apply S2.
Qed.
Lemma transform_fin : forall tracer unc z x, exists y, dztransform tracer unc z (Fin x) = Fin y.
Proof. intros. unfold dztransform. destruct (_ && _); cbn; eauto. Qed.
Lemma col_usable : forall lo hi s r, ends lo hi -> 0 < s -> strict_rv r -> rv_low r = lo -> rv_high r = hi ->
  (exists i k, (i < k < dzsize)%nat /\ tiny < rv_cdf r (support_of lo hi s (nth i (grid_of lo hi dzsize) 0)) /\ rv_cdf r (support_of lo hi s (nth k (grid_of lo hi dzsize) 0)) < 1 - tiny) ->
  usable (map (fun d => rv_cdf r (support_of lo hi s d)) (grid_of lo hi dzsize)).
Proof.
  intros lo hi s r EN PS [PR ST] L H (i & k & IK & T1 & T2). assert (N : (2 <= dzsize)%nat) by (unfold dzsize; lia). set (grid := grid_of lo hi dzsize) in *. set (sup := support_of lo hi s) in *. assert (LG : length grid = dzsize) by apply grid_length.
  assert (NC : forall i, (i < dzsize)%nat -> nth i (map (fun d => rv_cdf r (sup d)) grid) 0 = rv_cdf r (sup (nth i grid 0))) by (intros; apply (nth_map (fun d => rv_cdf r (sup d))); lia).
  pose proof (grid_support lo hi dzsize s EN N PS) as (_ & _ & GM). split.
  - intros a b AB. rewrite map_length, LG in AB. rewrite !NC by lia. destruct (GM a b AB) as [G1 G2]. apply ST; auto; rewrite ?L, ?H; apply (grid_in lo hi dzsize s); auto; lia.
  - exists i, k. rewrite map_length, LG. rewrite !NC by lia. auto.
Qed.
Lemma mix_lt : forall l a b c d, 0 <= l <= 1 -> a < c -> b < d -> l * a + (1 - l) * b < l * c + (1 - l) * d.
Proof.
  intros l a b c d [L0 L1] H1 H2. destruct (Req_dec l 0) as [->|NZ]; [lra|]. assert (l * a < l * c) by (apply Rmult_lt_compat_l; lra). assert ((1 - l) * b <= (1 - l) * d) by (apply Rmult_le_compat_l; lra). lra.
Qed.
(** Every table with two redshifts at least and sound rows, whose distributions are not too narrow for the tabulated velocities, is accepted. *)
Theorem C62_succeeds : forall sp read w tracer fn unc z b g w1 w2 tr, cubic_spline sp -> scipy_laws w -> known tracer unc -> all_sound read tracer unc ->
  tracer_rvs read w tracer fn unc = Ok (z, (b, g), (w1, w2), tr) -> (2 <= length z)%nat -> rising z ->
  (forall j, (j < length z)%nat -> exists i k u v, inner i /\ inner k /\ (i < k)%nat /\ node tracer unc i u /\ node tracer unc k v /\
    midway (rv_cdf (nth j b no_law) (Fin u)) /\ midway (rv_cdf (nth j b no_law) (Fin v)) /\ midway (rv_cdf (nth j g no_law) (Fin u)) /\ midway (rv_cdf (nth j g no_law) (Fin v))) ->
  exists m, tracer_smearing sp read w tracer fn unc = Ok m.
Proof.
  intros sp read w tracer fn unc z b g w1 w2 tr SP SL K SO H L2 RZ MID. assert (NB : b <> []).
  { intros ->. pose proof (rvs_inv _ _ _ _ _ _ _ _ _ _ _ H SO) as (t & fits & EZ & EF & EB & _). destruct fits; [|discriminate]. apply map_result_forall2 in EF. apply f2_length in EF. subst z. rewrite map_length in L2. cbn in EF. lia. }
  destruct (tracer_parts sp read w tracer fn unc z b g w1 w2 tr SL K SO H NB) as (lo & hi & s & EN & PS & LB & LG & W & WR & ET & FB & FG & EC & EQ). rewrite EQ. clear EQ.
  set (grid := grid_of lo hi dzsize) in *. set (sup := support_of lo hi s) in *. set (col := fun r => map (fun d => rv_cdf r (sup d)) grid) in *. assert (N : (4 <= dzsize)%nat) by (unfold dzsize; lia).
  assert (LGR : length grid = dzsize) by apply grid_length. assert (LCOL : forall r, length (col r) = dzsize) by (intros r; unfold col; rewrite map_length; auto).
  assert (NCOL : forall r i, (i < dzsize)%nat -> nth i (col r) 0 = rv_cdf r (sup (nth i grid 0))) by (intros r i I; unfold col; apply (nth_map (fun d => rv_cdf r (sup d))); lia).
  rewrite Forall_forall in FB, FG.
  assert (MID2 : forall j, (j < length z)%nat -> exists i k, (i < k < dzsize)%nat /\ (forall r, r = nth j b no_law \/ r = nth j g no_law -> tiny < rv_cdf r (sup (nth i grid 0)) /\ rv_cdf r (sup (nth k grid 0)) < 1 - tiny)).
  { intros j J. destruct (MID j J) as (i & k & u & v & Ii & Ik & IK & Nu & Nv & M1 & M2 & M3 & M4). exists i, k. destruct (node_support tracer unc lo hi s i EC Ii) as (Li & u' & Nu' & Su). destruct (node_support tracer unc lo hi s k EC Ik) as (Lk & v' & Nv' & Sv).
    rewrite (node_unique _ _ _ _ _ Nu' Nu) in Su. rewrite (node_unique _ _ _ _ _ Nv' Nv) in Sv. fold sup in Su, Sv. fold grid in Su, Sv. split; [lia|]. rewrite Su, Sv. unfold midway in *. fold tiny in *. intros r [-> | ->]; split; tauto. }
  assert (OK : forall l, length l = length z -> (forall j, (j < length z)%nat -> nth j l no_law = nth j b no_law \/ nth j l no_law = nth j g no_law) -> (forall r, In r l -> strict_rv r /\ rv_low r = lo /\ rv_high r = hi) ->
    exists m, set_interp sp (Smear (map (fun _ => grid) l) z (map col l) [] [] sup tr) = Ok m).
  { intros l LL NL FL. apply set_interp_ok with (n := dzsize) (g := grid); auto.
    - rewrite map_map. auto.
    - rewrite Forall_map. apply Forall_forall. intros r I. split; auto. destruct (FL r I) as (ST & LW & HI). apply col_usable; auto. destruct (In_nth _ _ no_law I) as (j & J & <-).
      destruct (MID2 j ltac:(lia)) as (i & k & IK & M). exists i, k. split; auto. apply M. apply NL. lia.
    - rewrite map_length. auto. }
  destruct (OK b LB ltac:(auto) FB) as [m1 E1]. destruct (OK g LG ltac:(auto) FG) as [m2 E2]. rewrite E1. cbn [bind]. rewrite E2. cbn [bind].
  apply set_interp_inv in E1. cbv zeta in E1. destruct E1 as (ED & EZ & ECD & ES & ETR & _). cbn [m_dz m_z m_cdf m_support m_transform] in *.
  apply set_interp_inv in E2. cbv zeta in E2. destruct E2 as (ED2 & EZ2 & ECD2 & ES2 & ETR2 & _). cbn [m_dz m_z m_cdf m_support m_transform] in *.
  rewrite (average_two sp m1 m2 w1 w2 (length z) dzsize).
  2:{ rewrite ECD, map_length. auto. }
  2:{ rewrite ECD, Forall_map. apply Forall_forall. auto. }
  2:{ intros j J. destruct (W j) as [|]; [auto|lia]. }
  assert (SUP : forall d x, In d (m_dz m1) -> In x d -> m_support m1 x <> NaN).
  { intros d x ID IX. rewrite ED in ID. apply in_map_iff in ID. destruct ID as (? & <- & _). rewrite ES. destruct (In_nth _ _ 0 IX) as (i & I & <-). destruct (grid_in lo hi dzsize s i EN ltac:(lia) PS ltac:(lia)) as [G _]. fold grid in G. fold sup in G.
    intros C. rewrite C in G. destruct lo; cbn in G; auto. }
  assert (TRN : forall z0 x, m_transform m1 z0 (Fin x) <> NaN) by (intros z0 x; rewrite ETR, ET; destruct (transform_fin tracer unc z0 x) as [y ->]; discriminate).
  cbn [forallb]. rewrite (same_tables_ok m1 m1), (same_tables_ok m1 m2); auto; try congruence.
  2:{ rewrite ED, ED2. clear - LB LG. rewrite <- LG in LB. clear LG. revert g LB. induction b as [|x l IH]; intros [|y g] L; try discriminate; auto. injection L as L. cbn. f_equal. auto. }
  cbn [andb]. apply set_interp_ok with (n := dzsize) (g := grid); auto.
  - rewrite ED. unfold mixed. rewrite map_map. rewrite <- LB. clear. generalize 0%nat. induction b as [|x l IH]; intros k; cbn; [auto|]. f_equal. apply IH.
  - apply Forall_forall. intros c IC. unfold mixed in IC. apply in_map_iff in IC. destruct IC as (j & <- & J). apply in_seq in J. split; [rewrite map_length, seq_length; auto|].
    destruct (FB (nth j b no_law) ltac:(apply nth_In; lia)) as (ST & LW & HI). destruct (FG (nth j g no_law) ltac:(apply nth_In; lia)) as (ST' & LW' & HI').
    destruct (MID2 j ltac:(lia)) as (i & k & IK & M). pose proof (M _ (or_introl eq_refl)) as [B1 B2]. pose proof (M _ (or_intror eq_refl)) as [G1 G2].
    assert (US : forall r, r = nth j b no_law \/ r = nth j g no_law -> usable (col r)).
    { intros r RR. apply col_usable; auto; try (destruct RR as [-> | ->]; auto; fail). exists i, k. split; auto. }
    destruct (US _ (or_introl eq_refl)) as [R1 _]. destruct (US _ (or_intror eq_refl)) as [R2 _]. assert (W1 : nth j w1 0 + nth j w2 0 = 1) by (destruct (W j) as [|]; [auto|lia]). pose proof (WR j) as WJ.
    rewrite ECD, ECD2. rewrite (nth_map col b j no_law) by lia. rewrite (nth_map col g j no_law) by lia.
    set (f := fun i => nth j w1 0 * nth i (col (nth j b no_law)) 0 + nth j w2 0 * nth i (col (nth j g no_law)) 0).
    assert (NF : forall i, (i < dzsize)%nat -> nth i (map f (seq 0 dzsize)) 0 = f i) by (intros i0 I0; rewrite nth_map with (d := 0%nat) by (rewrite seq_length; auto); rewrite seq_nth by auto; auto).
    split.
    + intros a c AC. rewrite map_length, seq_length in AC. rewrite !NF by lia. unfold f. pose proof (R1 a c ltac:(rewrite LCOL; auto)) as Q1. pose proof (R2 a c ltac:(rewrite LCOL; auto)) as Q2. replace (nth j w2 0) with (1 - nth j w1 0) by lra. apply mix_lt; auto.
    + exists i, k. rewrite map_length, seq_length. split; auto. rewrite !NF by lia. unfold f. rewrite !NCOL by lia. replace (nth j w2 0) with (1 - nth j w1 0) by lra. split; [replace tiny with (nth j w1 0 * tiny + (1 - nth j w1 0) * tiny) by ring|replace (1 - tiny) with (nth j w1 0 * (1 - tiny) + (1 - nth j w1 0) * (1 - tiny)) by ring]; apply mix_lt; auto.
  - unfold mixed. rewrite EZ, map_length, seq_length. auto.
  - rewrite EZ. auto.
  - rewrite EZ. auto.
Qed.
Print Assumptions C62_succeeds.
