Require Import Reals Lra Lia ZArith String List Bool Permutation Sorted.
From Verif Require Import Base Vec3 Sky_Model Cutsky_Model Box_Model Box_Spec Box_Proof Box_Proof2 Box_Proof3 Box_Proof4.
From Verif Require Import Remap_Model Rsd_Model Mask_Model FA_Model Region_Model Script_Model Script_Thm SV3_Model SV3_Thm Rosette_Model Rosette_Spec Rosette_Proof Rosette_Proof2.
Import ListNotations.
Open Scope R_scope.

Lemma io_bind_ok : forall {A B} (x : io A) (k : A -> io B) fs b, io_bind x k = (fs, Ok b) -> exists l a l', x = (l, Ok a) /\ k a = (l', Ok b) /\ fs = (l ++ l')%list.
Proof. intros A B [l [a|e]] k fs b H; cbn in H; [|discriminate]. destruct (k a) as [l' r] eqn:K. injection H as <- ->. eauto 6. Qed.
Lemma io_ret_ok : forall {A} (r : result A) fs a, io_ret r = (fs, Ok a) -> fs = [] /\ r = Ok a.
Proof. intros A r fs a H. injection H as <- ->. auto. Qed.
Lemma write_ok : forall o name ros imock cat fs t, write o name ros imock cat = (fs, Ok t) -> exists f, catalog_fn o name ros imock = Ok f /\ fs = [(f, cat)].
Proof. intros o name ros imock cat fs t H. unfold write in H. destruct (catalog_fn o name ros imock) as [f|]; [|discriminate]. injection H as <- _. eauto. Qed.
Ltac io_inv H := let l := fresh "l" in let a := fresh "a" in let l' := fresh "l" in let H1 := fresh "I" in let H2 := fresh "J" in
  apply io_bind_ok in H; destruct H as (l & a & l' & H1 & H2 & ?).

(* ---------- selection of rows ---------- *)
Lemma select_ok_length : forall {A} mask (l r : list A), Box_Model.select mask l = Ok r -> List.length l = List.length mask /\ List.length r = List.length (filter (fun b => b) mask).
Proof.
  intros A mask. induction mask as [|b mask IH]; intros [|a l] r H; cbn in H; try discriminate; [injection H as <-; auto|].
  destruct (Box_Model.select mask l) as [r'|] eqn:E; [|discriminate]. cbn in H. injection H as <-. destruct (IH _ _ E) as [A1 A2]. cbn. split; [auto|]. destruct b; cbn; auto.
Qed.
Lemma select_rows_ok : forall mask c c', Box_Model.select_rows mask c = Ok c' -> rows_ok (List.length mask) c.
Proof.
  intros mask c c' H. unfold Box_Model.select_rows in H. destruct (map_cols _ _) as [d|] eqn:E; [|discriminate]. clear H. unfold rows_ok. revert d E. generalize (pc_data c). intros l. induction l as [|[k y] l IH]; intros d E m x J; [destruct J|].
  cbn in E. destruct (Box_Model.select_col mask y) as [y'|] eqn:Ey; [|discriminate]. cbn [bind] in E. destruct (map_cols _ l) as [d'|] eqn:El; [|discriminate]. destruct J as [J|J]; [|apply (IH d' eq_refl m x J)].
  injection J as -> ->. destruct x as [v|v]; cbn in Ey; (destruct (Box_Model.select mask v) as [w|] eqn:Ew; [|discriminate]); apply select_ok_length in Ew; cbn; tauto.
Qed.
Lemma thin_rows : forall u p cat thin, Box_Model.select_rows (thin_mask u p (csize cat)) cat = Ok thin ->
  exists idx, rows_kept idx cat thin /\ (forall j, In j idx <-> (j < csize cat)%nat /\ u j < p) /\ csize thin = List.length (filter (fun b => b) (thin_mask u p (csize cat))).
Proof.
  intros u p cat thin H. pose proof (select_rows_ok _ _ _ H) as W. assert (L : List.length (thin_mask u p (csize cat)) = csize cat) by (unfold thin_mask, numbers; rewrite !map_length, seq_length; auto).
  destruct (kept_rows _ _ _ L ltac:(rewrite <- L; exact W)) as (c' & E & K). rewrite H in E. injection E as <-. exists (trues (thin_mask u p (csize cat))). split; [exact K|]. split.
  - intros j. rewrite trues_In. unfold thin_mask, numbers. rewrite map_map, nth_error_map. destruct (lt_dec j (csize cat)) as [Hj|Hj].
    + rewrite nth_error_nth' with (d := 0%nat) by (rewrite seq_length; auto). rewrite seq_nth by auto. cbn. split; [intros X; injection X as X; apply Rltb_true in X; auto|intros [_ X]; apply Rltb_true in X; rewrite X; auto].
    + assert (N : nth_error (seq 0 (csize cat)) j = None) by (apply nth_error_None; rewrite seq_length; lia). rewrite N. cbn. split; [discriminate|intros [? _]; lia].
  - clear K W L. unfold csize at 1. unfold Box_Model.select_rows in H. destruct (map_cols _ _) as [d|] eqn:E; [|discriminate]. cbn [bind] in H. injection H as <-. cbn [pc_data]. revert E. unfold csize.
    destruct (pc_data cat) as [|[k y] l]; cbn [map_cols]; intros E; [injection E as <-; reflexivity|]. destruct (Box_Model.select_col _ y) as [y'|] eqn:Ey; [|discriminate]. cbn [bind] in E. destruct (map_cols _ l) as [d'|]; [|discriminate]. injection E as <-.
    destruct y as [v|v]; cbn in Ey; (destruct (Box_Model.select _ v) as [w|] eqn:Ew; [|discriminate]); injection Ey as <-; apply select_ok_length in Ew; tauto.
Qed.

(* ---------- one mock ---------- *)
Lemma group_step_ok : forall i imock region g fs cat, group_step i false imock region g = (fs, Ok cat) -> made i imock true g region cat /\
  if (imock <? nran)%Z then exists f ran, fs = [(f, ran)] /\ catalog_fn (i_outdir i) "randoms" (g_rosettes g) imock = Ok f /\ made i imock false g region ran else fs = [].
Proof.
  intros i imock region g fs cat H. unfold group_step in H. io_inv H. apply io_ret_ok in I. destruct I as [-> Et]. rename a into ids. io_inv J. apply io_ret_ok in I. destruct I as [-> El].
  destruct (directions_of _ _) as [dirs|] eqn:Ed; [|discriminate]. cbn [bind] in El. rename a into los. io_inv J0. apply io_ret_ok in I. destruct I as [-> Ec]. subst. rewrite ?app_nil_r, ?app_nil_l in *.
  destruct (imock <? nran)%Z eqn:En.
  - io_inv J. apply io_ret_ok in I. destruct I as [-> Er]. io_inv J0. apply write_ok in I. destruct I as (f & Ef & ->). apply io_ret_ok in J. destruct J as [-> J]. injection J as ->. subst. split; [exists ids, dirs, los; auto|].
    exists f, a0. cbn. split; [reflexivity|]. split; auto. exists ids, dirs, los. auto.
  - apply io_ret_ok in J. destruct J as [-> J]. injection J as ->. split; [exists ids, dirs, los; auto|reflexivity].
Qed.
Lemma group_loop_ok : forall i imock l fs r, (forall x, In x l -> mem (snd x) script_regions = true) -> group_loop i false imock l = (fs, Ok r) ->
  Forall2 (fun x y => fst (fst y) = g_rosettes (fst x) /\ snd (fst y) = snd x /\ made i imock true (fst x) (snd x) (snd y)) l r /\
  if (imock <? nran)%Z then Forall2 (fun x f => catalog_fn (i_outdir i) "randoms" (g_rosettes (fst x)) imock = Ok (fst f) /\ made i imock false (fst x) (snd x) (snd f)) l fs else fs = [].
Proof.
  intros i imock l. induction l as [|[g region] l IH]; intros fs r M H; cbn [group_loop] in H.
  - apply io_ret_ok in H. destruct H as [-> H]. injection H as <-. split; [constructor|]. destruct (imock <? nran)%Z; [constructor|reflexivity].
  - pose proof (M (g, region) (or_introl eq_refl)) as M1. cbn [snd] in M1. rewrite M1 in H. io_inv H. io_inv J. apply io_ret_ok in J0. destruct J0 as [-> J]. injection J as <-. subst.
    destruct (group_step_ok _ _ _ _ _ _ I) as [A B]. destruct (IH _ _ (fun x h => M x (or_intror h)) I0) as [C D]. split; [constructor; auto|].
    destruct (imock <? nran)%Z; [|subst; reflexivity]. destruct B as (f & ran & -> & Ef & Mr). cbn. rewrite app_nil_r. constructor; auto.
Qed.
Lemma thin_loop_ok : forall i imock p l fs t, thin_loop i imock p l = (fs, Ok t) ->
  Forall2 (fun x f => catalog_fn (i_outdir i) "data" (fst (fst x)) imock = Ok (fst f) /\ Box_Model.select_rows (thin_mask (i_thin i imock (fst (fst x))) p (csize (snd x))) (snd x) = Ok (snd f)) l fs.
Proof.
  intros i imock p l. induction l as [|[[ros reg] cat] l IH]; intros fs t H; cbn [thin_loop] in H.
  - apply io_ret_ok in H. destruct H as [-> _]. constructor.
  - io_inv H. apply io_ret_ok in I. destruct I as [-> Es]. io_inv J. apply write_ok in I. destruct I as (f & Ef & ->). subst. cbn. constructor; [cbn; auto|]. eapply IH; eauto.
Qed.
Lemma thin_region_ok : forall i imock all region fs t, thin_region i imock all region = (fs, Ok t) -> (0 < region_total region all)%nat /\
  Forall2 (thinned i imock all) (filter (fun x => String.eqb (snd (fst x)) region) all) fs.
Proof.
  intros i imock all region fs t H. unfold thin_region in H. io_inv H. apply io_ret_ok in I. destruct I as [-> Ep]. cbn in H. subst. fold (region_total region all) in Ep.
  unfold fdiv in Ep. destruct (Req_EM_T (INR (region_total region all)) 0) as [Z0|Z0]; [discriminate|]. injection Ep as <-.
  assert (P : (0 < region_total region all)%nat) by (destruct (region_total region all); [cbn in Z0; lra|lia]). split; auto. assert (Pr : 0 < INR (region_total region all)) by (apply lt_0_INR; auto).
  apply thin_loop_ok in J. assert (Q : forall x, In x (filter (fun x : list BinNums.Z * string * pcat => String.eqb (snd (fst x)) region) all) -> snd (fst x) = region) by (intros x Hx; apply filter_In in Hx; destruct Hx as [_ Hx]; apply String.eqb_eq in Hx; auto).
  revert J Q. generalize (filter (fun x : list BinNums.Z * string * pcat => String.eqb (snd (fst x)) region) all). intros l J. induction J as [|x f l fs [A B] F IH]; intros Q; constructor; [|apply IH; intros; apply Q; right; auto].
  pose proof (Q x (or_introl eq_refl)) as Rx. split; auto. rewrite Rx. split; auto. destruct (thin_rows _ _ _ _ B) as (idx & K & D & _). exists idx. split; auto. intros j. rewrite D.
  assert (Eq : forall u, u < INR (i_ndata i region) / INR (region_total region all) <-> u * INR (region_total region all) < INR (i_ndata i region)).
  { intros u. split; intros U; [apply Rmult_lt_compat_r with (r := INR (region_total region all)) in U; auto; unfold Rdiv in U; rewrite Rmult_assoc, Rinv_l, Rmult_1_r in U; lra|].
    apply Rmult_lt_reg_r with (INR (region_total region all)); auto. unfold Rdiv. rewrite Rmult_assoc, Rinv_l, Rmult_1_r; lra. }
  rewrite Eq. tauto.
Qed.
Lemma split_two : forall {A B} (P : A -> B -> Prop) (p q : A -> bool) l a b, (forall x, In x l -> q x = negb (p x)) -> Forall2 P (filter p l) a -> Forall2 P (filter q l) b -> exists c, Forall2 P l c /\ Permutation (a ++ b) c.
Proof.
  intros A B P p q l. induction l as [|x l IH]; intros a b Q F G; cbn in F, G.
  - inversion F; inversion G; subst. exists []. split; constructor.
  - assert (Qx := Q x (or_introl eq_refl)). destruct (p x); cbn in Qx; rewrite Qx in G.
    + inversion F as [|? y ? a' Pxy F' E1 E2]; subst. destruct (IH a' b (fun z h => Q z (or_intror h)) F' G) as (c & Fc & Pc). exists (y :: c). split; [constructor; auto|]. cbn. apply perm_skip. exact Pc.
    + inversion G as [|? y ? b' Pxy G' E1 E2]; subst. destruct (IH a b' (fun z h => Q z (or_intror h)) F G') as (c & Fc & Pc). exists (y :: c). split; [constructor; auto|].
      apply Permutation_sym. apply Permutation_cons_app. apply Permutation_sym. exact Pc.
Qed.
Lemma one_mock_ok : forall i regions imock fs t, (forall x, In x regions -> snd x = "N"%string \/ snd x = "S"%string) -> one_mock i false regions imock = (fs, Ok t) -> mock_files i regions imock fs.
Proof.
  intros i regions imock fs t M H. unfold one_mock in H. io_inv H. apply group_loop_ok in I; [|intros x Hx; destruct (M x Hx) as [-> | ->]; reflexivity]. destruct I as [Fd Fr].
  unfold script_regions, each in J. io_inv J. io_inv J0. apply io_ret_ok in J. destruct J as [-> _]. rewrite app_nil_r in *. destruct (thin_region_ok _ _ _ _ _ _ I) as [PN FN]. destruct (thin_region_ok _ _ _ _ _ _ I0) as [PS FS].
  assert (Ra : forall y, In y a -> snd (fst y) = "N"%string \/ snd (fst y) = "S"%string).
  { intros y Hy. clear - Fd M Hy. induction Fd as [|x z regions a (_ & Ez & _) F IH]; [destruct Hy|]. destruct Hy as [<-|Hy]; [rewrite Ez; apply M; left; auto|apply IH; auto; intros; apply M; right; auto]. }
  assert (Q : forall y, In y a -> String.eqb (snd (fst y)) "S" = negb (String.eqb (snd (fst y)) "N")) by (intros y Hy; destruct (Ra y Hy) as [-> | ->]; reflexivity).
  destruct (split_two _ _ _ a _ _ Q FN FS) as (thin & Ft & Pt).
  exists a, l, thin. split; [exact Fd|]. split; [exact Fr|]. split; [exact Ft|]. split; [intros region [<-|[<-|[]]]; auto|]. subst. apply Permutation_app_head. apply Permutation_sym. exact Pt.
Qed.
Lemma each_ok : forall {A} (f : A -> io unit) l fs t, each f l = (fs, Ok t) -> exists fss, Forall2 (fun a x => exists t', f a = (x, Ok t')) l fss /\ fs = List.concat fss.
Proof.
  intros A f l. induction l as [|a l IH]; intros fs t H; cbn [each] in H; [apply io_ret_ok in H; destruct H as [-> _]; exists []; split; [constructor|reflexivity]|].
  io_inv H. destruct (IH _ _ J) as (fss & F & ->). exists (l0 :: fss). split; [constructor; eauto|exact H].
Qed.
Lemma zassoc_region : forall directions r, zassoc r (region_rosettes directions) = match zassoc r directions with Some d => Some (get_region (snd d)) | None => None end.
Proof. intros directions r. unfold region_rosettes. induction directions as [|[k d] directions IH]; cbn; auto. destruct (k =? r)%Z; auto. Qed.
Lemma all_in_ok : forall directions region l, all_in (region_rosettes directions) region l = Ok true -> forall r, In r l -> exists ra dec, zassoc r directions = Some (ra, dec) /\ region = get_region dec.
Proof.
  intros directions region l. induction l as [|k l IH]; intros H r Hr; [destruct Hr|]. cbn in H. rewrite zassoc_region in H. destruct (zassoc k directions) as [[ra dec]|] eqn:E; [|discriminate]. cbn in H.
  destruct (String.eqb_spec (get_region dec) region) as [Eq|]; [|discriminate]. destruct Hr as [<-|Hr]; eauto.
Qed.
Lemma regions_ok : forall directions groups r, rosettes_to_region (region_rosettes directions) (map g_rosettes groups) = Ok r ->
  Forall2 (in_region directions) groups (map snd r) /\ List.length r = List.length groups.
Proof.
  intros directions groups r H. unfold rosettes_to_region in H. destruct (map_result _ _) as [names|] eqn:En; [|discriminate]. cbn [bind] in H. destruct (check_groups _ _) as [[]|] eqn:Ec; [|discriminate]. cbn [bind] in H. injection H as <-.
  revert names En Ec. induction groups as [|g groups IH]; intros names En Ec; cbn in En; [injection En as <-; cbn; split; constructor|].
  destruct (group_region _ (g_rosettes g)) as [n0|] eqn:Eg; [|discriminate]. cbn [bind] in En. destruct (map_result _ (map g_rosettes groups)) as [names'|] eqn:En'; [|discriminate]. cbn [bind] in En. injection En as <-. cbn in Ec.
  destruct (all_in _ n0 (g_rosettes g)) as [[|]|] eqn:Ea; try discriminate. cbn [bind] in Ec. destruct (IH _ eq_refl Ec) as [F L]. cbn. split; [|rewrite L; auto]. constructor; auto. split.
  - intros E0. rewrite E0 in Eg. discriminate.
  - intros r Hr. destruct (all_in_ok _ _ _ Ea r Hr) as (ra & dec & E1 & ->). exists ra, dec. auto.
Qed.
Lemma script_ok : forall i start stop fs t, sv3_script i false start stop = (fs, Ok t) -> exists regions fss, Forall2 (in_region (i_directions i)) (i_groups i) regions /\ Forall2 (mock_files i (combine (i_groups i) regions)) (SV3_Model.zrange start stop) fss /\ fs = List.concat fss.
Proof.
  intros i start stop fs t H. unfold sv3_script in H. io_inv H. apply io_ret_ok in I. destruct I as [-> Er]. cbn in H. subst. destruct (regions_ok _ _ _ Er) as [F _]. destruct (each_ok _ _ _ _ J) as (fss & G & ->).
  exists (map snd a), fss. split; auto. split; auto. clear J. revert G. generalize (SV3_Model.zrange start stop). intros l G. induction G as [|im x l fss [t' E] G IH]; constructor; auto. apply one_mock_ok with t'; auto.
  intros [g reg] Hx. clear - F Hx. cbn. revert Hx. induction F as [|g0 r0 gs rs [Ne A] F IH]; intros Hx; cbn in Hx; [destruct Hx|]. destruct Hx as [Hx|Hx]; [|auto]. injection Hx as -> ->.
  destruct (g_rosettes g) as [|k ks] eqn:Eg; [exfalso; apply Ne; auto|]. destruct (A k (or_introl eq_refl)) as (ra & dec & _ & ->). destruct (Rltb (259 / 8) dec); auto.
Qed.
(* ---------- names ---------- *)
Lemma names_of : forall {A} (P : A -> string * pcat -> Prop) (name : A -> string) l fs, (forall x f, P x f -> fst f = name x) -> Forall2 P l fs -> map fst fs = map name l.
Proof. intros A P name l fs H F. induction F as [|x f l fs Q F IH]; cbn; auto. rewrite IH, (H _ _ Q). reflexivity. Qed.
Lemma mock_names : forall i regions imock fs d, i_outdir i = Some d -> mock_files i regions imock fs ->
  Permutation (map fst fs) ((if (imock <? nran)%Z then map (fun g => fn d "randoms" (g_rosettes (fst g)) imock) regions else []) ++ map (fun g => fn d "data" (g_rosettes (fst g)) imock) regions).
Proof.
  intros i regions imock fs d Ed (data & ran & thin & Fd & Fr & Ft & _ & P). apply Permutation_map with (f := fst) in P. rewrite map_app in P. apply Permutation_sym in P. eapply Permutation_trans; [exact P|]. clear P.
  assert (E1 : map fst thin = map (fun g : group * string => fn d "data" (g_rosettes (fst g)) imock) regions).
  { rewrite (names_of (thinned i imock data) (fun x : list BinNums.Z * string * pcat => fn d "data" (fst (fst x)) imock) data thin); [|intros x f (A & _); unfold catalog_fn in A; rewrite Ed in A; injection A as <-; reflexivity|exact Ft].
    clear - Fd. induction Fd as [|x y l l' (A & _) F IH]; [reflexivity|]. cbn [map]. rewrite IH, A. reflexivity. }
  rewrite E1. destruct (imock <? nran)%Z.
  - rewrite (names_of _ (fun x : group * string => fn d "randoms" (g_rosettes (fst x)) imock) regions ran) with (2 := Fr); [apply Permutation_refl|]. intros x f (A & _). unfold catalog_fn in A. rewrite Ed in A. injection A as <-. reflexivity.
  - subst. apply Permutation_refl.
Qed.
Lemma script_names : forall i start stop fs t d names, i_outdir i = Some d -> sv3_script i false start stop = (fs, Ok t) -> written (Some d) (map g_rosettes (i_groups i)) start stop = Ok names -> Permutation (map fst fs) names.
Proof.
  intros i start stop fs t d names Ed H W. destruct (script_ok _ _ _ _ _ H) as (regions & fss & Fr & Fm & ->). rewrite written_eq in W. injection W as <-. clear H.
  assert (L : map (fun x : group * string => g_rosettes (fst x)) (combine (i_groups i) regions) = map g_rosettes (i_groups i)) by (clear - Fr; induction Fr; cbn; congruence).
  induction Fm as [|im x l fss M F IH]; cbn; [constructor|]. rewrite map_app. apply Permutation_app; [|exact IH]. pose proof (mock_names _ _ _ _ _ Ed M) as N. rewrite <- L, !map_map. exact N.
Qed.
