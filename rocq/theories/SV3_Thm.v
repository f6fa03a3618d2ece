(** Property C71: file names, regions and edges of the SV3 scripts. *)
Require Import Reals Lra Lia ZArith String Ascii List Bool Arith.
From Verif Require Import Base Box_Model Blind_Model FA_Model Smear_Model Smear_Proof Tile_Model Tile_Thm SV3_Model SV3_Spec Blind_Thm2.
Import List ListNotations.
Open Scope list_scope.

(** ** Names *)
Lemma str_form : forall z, exists n, (str z = decimal n /\ z = Z.of_N n) \/ (str z = String "-" (decimal n) /\ z = (- Z.of_N n)%Z /\ n <> 0%N).
Proof.
  intros z. unfold str, padded. exists (Z.abs_N z). assert (Z0 : forall k, zeros (0 - k) = ""%string) by reflexivity. destruct z; cbn [Z.abs_N].
  - left. split; auto.
  - left. rewrite Z0. split; auto.
  - right. rewrite Z0. repeat split; auto. discriminate.
Qed.
Lemma str_inj : forall a b, str a = str b -> a = b.
Proof. intros a b H. apply (padded_inj 0), H. Qed.
Lemma digits_split : forall d d' r r', Forall digit (list_ascii_of_string d) -> Forall digit (list_ascii_of_string d') -> match r with String c _ => ~ digit c | EmptyString => True end -> match r' with String c _ => ~ digit c | EmptyString => True end ->
  (d ++ r = d' ++ r')%string -> d = d' /\ r = r'.
Proof.
  induction d as [|c d IH]; intros [|c' d'] r r' F F' N N' H; cbn in *.
  - auto.
  - subst r. inversion F'; tauto.
  - subst r'. inversion F; tauto.
  - injection H as -> H. inversion F; subst. inversion F'; subst. destruct (IH d' r r') as [-> ->]; auto.
Qed.
Lemma str_split : forall a a' r r', match r with String c _ => ~ digit c | EmptyString => True end -> match r' with String c _ => ~ digit c | EmptyString => True end -> (str a ++ r = str a' ++ r')%string -> a = a' /\ r = r'.
Proof.
  intros a a' r r' N N' H. assert (D : forall n r s, (decimal n ++ r)%string = String "-" s -> False).
  { intros n q s E. destruct (decimal_nonempty n) as (c & t & E' & D). rewrite E' in E. cbn in E. injection E as -> _. unfold digit in D. cbn in D. lia. }
  destruct (str_form a) as (n & [[E Za]|(E & Za & _)]), (str_form a') as (n' & [[E' Za']|(E' & Za' & _)]); rewrite E, E' in H; cbn [append] in H.
  - apply digits_split in H; auto using decimal_digits. destruct H as [H ->]. apply decimal_inj in H. subst. auto.
  - exfalso. apply (D n r (decimal n' ++ r')%string). auto.
  - exfalso. apply (D n' r' (decimal n ++ r)%string). auto.
  - injection H as H. apply digits_split in H; auto using decimal_digits. destruct H as [H ->]. apply decimal_inj in H. subst. auto.
Qed.
Lemma dash_digit : ~ digit "-"%char. Proof. unfold digit; cbn; lia. Qed.
Lemma join_cons : forall a l, join "-" (str a :: map str l) = (str a ++ match l with [] => "" | _ => String "-" (join "-" (map str l)) end)%string.
Proof. intros a [|b l]; cbn [join map]; [|reflexivity]. clear. induction (str a); cbn; congruence. Qed.
Lemma join_inj : forall l m, join "-" (map str l) = join "-" (map str m) -> l = m.
Proof.
  assert (NE : forall a r, (str a ++ r)%string <> ""%string) by (intros a r; destruct (str_form a) as (n & [[-> _]|(-> & _)]); [destruct (decimal_nonempty n) as (c & s & -> & _)|]; discriminate).
  induction l as [|a l IH]; intros [|b m] H; auto; cbn [map] in H; rewrite ?join_cons in H.
  - cbn in H. symmetry in H. destruct (NE _ _ H).
  - cbn in H. destruct (NE _ _ H).
  - apply str_split in H; [|destruct l; cbn; auto using dash_digit|destruct m; cbn; auto using dash_digit]. destruct H as [-> H]. f_equal. apply IH. destruct l, m; auto; try discriminate. injection H as H. auto.
Qed.
Lemma str_signed : forall z, Forall signed (list_ascii_of_string (str z)). Proof. intros. apply padded_signed. Qed.
Lemma join_signed : forall l, Forall signed (list_ascii_of_string (join "-" (map str l))).
Proof. induction l as [|a l IH]; cbn [map]; [constructor|]. rewrite join_cons, list_app. apply Forall_app. split; [apply str_signed|]. destruct l; cbn; constructor; auto. right. auto. Qed.
Lemma base_inj : forall e n rs i n' rs' i', base_name n rs i e = base_name n' rs' i' e -> n = n' /\ rs = rs' /\ i = i'.
Proof.
  intros e n rs i n' rs' i' H. unfold base_name in H. apply (f_equal list_ascii_of_string) in H. rewrite !list_app in H. rewrite !app_assoc in H. apply app_inv_tail in H. rewrite <- !app_assoc in H. cbn [list_ascii_of_string app] in H.
  assert (U : ~ signed "_"%char) by (intros [K|K]; [unfold digit in K; cbn in K; lia|discriminate]). assert (U' : ~ signed "s"%char) by (intros [K|K]; [unfold digit in K; cbn in K; lia|discriminate]).
  set (pre := fun x rs => list_ascii_of_string x ++ "_"%char :: "r"%char :: "o"%char :: "s"%char :: "e"%char :: "t"%char :: "t"%char :: "e"%char :: "s"%char :: "-"%char :: list_ascii_of_string (join "-" (map str rs))).
  assert (H' : pre n rs ++ "_"%char :: list_ascii_of_string (str i) = pre n' rs' ++ "_"%char :: list_ascii_of_string (str i')) by (unfold pre; rewrite <- !app_assoc; exact H).
  apply (split_after signed) in H'; auto using str_signed. destruct H' as (P & _ & Q). apply string_inj, str_inj in Q. subst i'.
  set (pre2 := fun x => list_ascii_of_string x ++ ["_"; "r"; "o"; "s"; "e"; "t"; "t"; "e"]%char).
  assert (P' : pre2 n ++ "s"%char :: "-"%char :: list_ascii_of_string (join "-" (map str rs)) = pre2 n' ++ "s"%char :: "-"%char :: list_ascii_of_string (join "-" (map str rs'))) by (unfold pre2; rewrite <- !app_assoc; exact P).
  apply (split_after signed) in P'; auto; try (constructor; [right; auto|apply join_signed]). destruct P' as (P1 & _ & P2). injection P2 as P2. apply string_inj, join_inj in P2. apply app_inv_tail, string_inj in P1. auto.
Qed.
Lemma path_inj : forall d f f', relative f -> relative f' -> path_join d f = path_join d f' -> f = f'.
Proof.
  intros d f f' Rf Rf' H. assert (G : forall f, relative f -> path_join d f = match d with ""%string => f | _ => if String.eqb (substring (String.length d - 1) 1 d) "/" then (d ++ f)%string else (d ++ "/" ++ f)%string end).
  { intros g Rg. destruct g as [|c g]; [reflexivity|]. cbn in Rg. unfold path_join. destruct c as [[|] [|] [|] [|] [|] [|] [|] [|] ]; try reflexivity. easy. }
  rewrite !G in H by auto. destruct d as [|c d]; auto. destruct (String.eqb _ _).
  - apply app_inj_l in H. auto.
  - apply app_inj_l in H. apply app_inj_l in H. auto.
Qed.
Lemma base_relative : forall n rs i e, relative n -> relative (base_name n rs i e).
Proof. intros [|c n] rs i e H; cbn; auto. discriminate. Qed.
(** Different catalogs have different names. *)
Theorem C71_names : forall outdir n rs i n' rs' i', relative n -> relative n' -> catalog_fn (Some outdir) n rs i = catalog_fn (Some outdir) n' rs' i' -> n = n' /\ rs = rs' /\ i = i'.
Proof. intros d n rs i n' rs' i' Rn Rn' H. cbn in H. injection H as H. apply path_inj in H; auto using base_relative. apply base_inj in H. auto. Qed.
Print Assumptions C71_names.
Theorem C71_correlation_names : forall outdir c rs i c' rs' i', (corr_fn outdir c rs i = corr_fn outdir c' rs' i' -> c = c' /\ rs = rs' /\ i = i') /\ (cov_fn outdir c = cov_fn outdir c' -> c = c') /\ corr_fn outdir c rs i <> cov_fn outdir c'.
Proof.
  intros d c rs i c' rs' i'. unfold corr_fn, cov_fn. split; [|split]; intros H; apply path_inj in H; try (cbn; discriminate).
  - apply base_inj in H. destruct H as (H & -> & ->). apply app_inj_l in H. auto.
  - apply app_inj_l in H. apply app_inj_r in H. auto.
Qed.
Print Assumptions C71_correlation_names.
(** From the script that imports it, the function raises whatever its arguments: the directory is only defined when its own file is run. *)
Theorem C71_import_refuted : forall name rosettes imock, catalog_fn (module_outdir false) name rosettes imock = Err NameError.
Proof. reflexivity. Qed.
Print Assumptions C71_import_refuted.
Theorem C71_correlation_refuted : forall start stop, (start < stop)%Z -> read_names (module_outdir false) sv3_groups start stop = Err NameError.
Proof.
  intros start stop H. assert (Z1 : exists i l, zrange start stop = i :: l) by (unfold zrange; destruct (Z.to_nat (stop - start)) as [|k] eqn:E; [lia|cbn; eauto]).
  destruct Z1 as (i & l & Z1). unfold read_names, sv3_groups. rewrite Z1. reflexivity.
Qed.
Print Assumptions C71_correlation_refuted.

(** ** Files that are written and read *)
Lemma zrange_In : forall a b x, In x (zrange a b) <-> (a <= x < b)%Z.
Proof.
  intros a b x. unfold zrange. rewrite in_map_iff. split.
  - intros (i & <- & I). apply in_seq in I. lia.
  - intros H. exists (Z.to_nat (x - a)). split; [lia|]. apply in_seq. lia.
Qed.
Lemma map_result_pure : forall {A B} (f : A -> result B) (g : A -> B) l, (forall a, f a = Ok (g a)) -> map_result f l = Ok (map g l).
Proof. intros A B f g l H. induction l as [|a l IH]; auto. cbn. rewrite H. cbn [bind]. rewrite IH. reflexivity. Qed.
Definition fn (d n : string) (g : list Z) (i : Z) : string := path_join d (base_name n g i ".fits").
Lemma written_eq : forall d groups a b, written (Some d) groups a b = Ok (List.concat (map (fun i => (if (i <? nran)%Z then map (fun g => fn d "randoms" g i) groups else []) ++ map (fun g => fn d "data" g i) groups) (zrange a b))).
Proof.
  intros d groups a b. unfold written. rewrite (map_result_pure _ (fun i => (if (i <? nran)%Z then map (fun g => fn d "randoms" g i) groups else []) ++ map (fun g => fn d "data" g i) groups)); [reflexivity|].
  intros i. rewrite (map_result_pure (fun g => catalog_fn (Some d) "data" g i) (fun g => fn d "data" g i)) by reflexivity. destruct (i <? nran)%Z; [rewrite (map_result_pure _ (fun g => fn d "randoms" g i)) by reflexivity|]; reflexivity.
Qed.
Lemma read_eq : forall d groups a b, read_names (Some d) groups a b = Ok (List.concat (map (fun g => List.concat (map (fun i => fn d "data" g i :: map (fun r => fn d "randoms" g r) (zrange 0 nran_read)) (zrange a b))) groups)).
Proof.
  intros d groups a b. unfold read_names. rewrite (map_result_pure _ (fun g => List.concat (map (fun i => fn d "data" g i :: map (fun r => fn d "randoms" g r) (zrange 0 nran_read)) (zrange a b)))); [reflexivity|].
  intros g. rewrite (map_result_pure _ (fun i => fn d "data" g i :: map (fun r => fn d "randoms" g r) (zrange 0 nran_read))); [reflexivity|]. intros i. cbn [catalog_fn bind]. rewrite (map_result_pure _ (fun r => fn d "randoms" g r)) by reflexivity. reflexivity.
Qed.
Lemma fn_inj : forall d n g i n' g' i', relative n -> relative n' -> fn d n g i = fn d n' g' i' -> n = n' /\ g = g' /\ i = i'.
Proof. intros. apply (C71_names d); auto. cbn. f_equal. auto. Qed.
Lemma written_In : forall d groups a b files f, written (Some d) groups a b = Ok files ->
  (In f files <-> exists g i, In g groups /\ (a <= i < b)%Z /\ (f = fn d "data" g i \/ (i < nran)%Z /\ f = fn d "randoms" g i)).
Proof.
  intros d groups a b files f H. rewrite written_eq in H. apply ok_inj_p in H. subst files. rewrite in_concat. split.
  - intros (l & L & F). apply in_map_iff in L. destruct L as (i & <- & I). apply zrange_In in I. apply in_app_iff in F. destruct F as [F|F].
    + destruct (Z.ltb_spec i nran); [|destruct F]. apply in_map_iff in F. destruct F as (g & <- & G). exists g, i. auto.
    + apply in_map_iff in F. destruct F as (g & <- & G). exists g, i. auto.
  - intros (g & i & G & I & F). eexists. split; [apply in_map_iff; exists i; split; [reflexivity|apply zrange_In; auto]|]. apply in_app_iff. destruct F as [->|[N ->] ].
    + right. apply in_map_iff. eauto.
    + left. rewrite (proj2 (Z.ltb_lt _ _) N). apply in_map_iff. eauto.
Qed.
Lemma read_In : forall d groups a b files f, read_names (Some d) groups a b = Ok files ->
  (In f files <-> exists g, In g groups /\ ((exists i, (a <= i < b)%Z /\ f = fn d "data" g i) \/ (a < b)%Z /\ exists r, (0 <= r < nran_read)%Z /\ f = fn d "randoms" g r)).
Proof.
  intros d groups a b files f H. rewrite read_eq in H. apply ok_inj_p in H. subst files. rewrite in_concat. split.
  - intros (l & L & F). apply in_map_iff in L. destruct L as (g & <- & G). exists g. split; auto. apply in_concat in F. destruct F as (m & M & F). apply in_map_iff in M. destruct M as (i & <- & I). apply zrange_In in I. destruct F as [<-|F]; [eauto|].
    apply in_map_iff in F. destruct F as (r & <- & Hr). apply zrange_In in Hr. right. split; [lia|]. eauto.
  - intros (g & G & F). eexists. split; [apply in_map_iff; exists g; split; [reflexivity|auto]|]. rewrite in_concat. destruct F as [(i & I & ->)|(Hab & r & Hr & ->)].
    + eexists. split; [apply in_map_iff; exists i; split; [reflexivity|apply zrange_In; auto]|]. left. auto.
    + eexists. split; [apply in_map_iff; exists a; split; [reflexivity|apply zrange_In; lia]|]. right. apply in_map_iff. exists r. split; auto. apply zrange_In. auto.
Qed.
(** With the directory at hand, correlation functions of mocks start, ..., stop - 1 find all their files exactly when these mocks, and the first ten, were made. *)
Theorem C71_files : forall outdir groups first last start stop files wanted, groups <> [] -> (start < stop)%Z -> written (Some outdir) groups first last = Ok files -> read_names (Some outdir) groups start stop = Ok wanted ->
  ((forall f, In f wanted -> In f files) <-> (first <= start /\ stop <= last /\ first <= 0 /\ 10 <= last)%Z).
Proof.
  intros d groups first last start stop files wanted NG HS W Rd. split.
  - intros H. destruct groups as [|g gs]; [easy|].
    assert (D : forall i, (start <= i < stop)%Z -> (first <= i < last)%Z).
    { intros i I. assert (F : In (fn d "data" g i) wanted) by (apply (read_In d (g :: gs) start stop wanted _ Rd); exists g; split; [left; auto|left; eauto]). apply H in F. apply (written_In d (g :: gs) first last files _ W) in F. destruct F as (g' & i' & _ & I' & [F|[_ F] ]); apply fn_inj in F; try (cbn; discriminate); destruct F as (F1 & F2 & F3); [subst; auto|discriminate]. }
    assert (E : forall r, (0 <= r < 10)%Z -> (first <= r < last)%Z).
    { intros r I. assert (F : In (fn d "randoms" g r) wanted) by (apply (read_In d (g :: gs) start stop wanted _ Rd); exists g; split; [left; auto|right; split; auto; exists r; split; auto]). apply H in F. apply (written_In d (g :: gs) first last files _ W) in F. destruct F as (g' & i' & _ & I' & [F|[_ F] ]); apply fn_inj in F; try (cbn; discriminate); destruct F as (F1 & F2 & F3); [discriminate|subst; auto]. }
    pose proof (D start). pose proof (D (stop - 1)%Z). pose proof (E 0%Z). pose proof (E 9%Z). lia.
  - intros (A & B & C & D) f F. apply (read_In d groups start stop wanted _ Rd) in F. destruct F as (g & G & F). apply (written_In d groups first last files _ W). destruct F as [(i & I & ->)|(_ & r & Hr & ->)].
    + exists g, i. split; auto. split; [lia|auto].
    + unfold nran_read in Hr. exists g, r. split; auto. split; [lia|]. right. unfold nran. split; [lia|auto].
Qed.
Print Assumptions C71_files.
Lemma nodup_concat_map : forall {A B} (f : A -> list B) l, NoDup l -> (forall a, In a l -> NoDup (f a)) -> (forall a a' b, In a l -> In a' l -> In b (f a) -> In b (f a') -> a = a') -> NoDup (List.concat (map f l)).
Proof.
  intros A B f. induction l as [|a l IH]; intros ND Hn Hd; cbn; [constructor|]. inversion ND; subst.
  assert (NA : forall (l m : list B), NoDup l -> NoDup m -> (forall b, In b l -> ~ In b m) -> NoDup (l ++ m)).
  { induction l0 as [|x l0 IHl]; intros m Nl Nm D; cbn; auto. inversion Nl; subst. constructor; [rewrite in_app_iff; intros [K|K]; [auto|apply (D x); [left|]; auto]|]. apply IHl; auto. intros b Hb. apply D. right. auto. }
  apply NA; [apply Hn; left; auto|apply IH; auto; [intros; apply Hn; right; auto|intros a1 a2 b I1 I2; apply Hd; right; auto]|].
  intros b Hb C. apply in_concat in C. destruct C as (m & M & C). apply in_map_iff in M. destruct M as (a' & <- & A'). assert (a = a') by (apply (Hd a a' b); [left|right| |]; auto). subst. auto.
Qed.
(** No catalog overwrites another. *)
Theorem C71_no_overwrite : forall outdir groups first last files, NoDup groups -> written (Some outdir) groups first last = Ok files -> NoDup files.
Proof.
  intros d groups first last files ND W. rewrite written_eq in W. apply ok_inj_p in W. subst files.
  assert (Inj : forall n i, relative n -> NoDup (map (fun g => fn d n g i) groups)).
  { intros n i Rn. clear -ND Rn. induction ND as [|g gs Hn ND IH]; cbn; constructor; auto. intros C. apply in_map_iff in C. destruct C as (g' & E & G'). apply fn_inj in E; auto. destruct E as (_ & -> & _). contradiction. }
  apply nodup_concat_map.
  - unfold zrange. apply FinFun.Injective_map_NoDup; [intros x y E; lia|apply seq_NoDup].
  - intros i _. assert (Di : NoDup (map (fun g => fn d "data" g i) groups)) by (apply Inj; discriminate). assert (Ri : NoDup (map (fun g => fn d "randoms" g i) groups)) by (apply Inj; discriminate). destruct (i <? nran)%Z; auto.
    revert Ri Di. assert (X : forall b, In b (map (fun g => fn d "randoms" g i) groups) -> ~ In b (map (fun g => fn d "data" g i) groups)).
    { intros b B C. apply in_map_iff in B. destruct B as (g & <- & _). apply in_map_iff in C. destruct C as (g' & E & _). apply fn_inj in E; try (cbn; discriminate). destruct E as (E & _). discriminate. }
    revert X. generalize (map (fun g => fn d "randoms" g i) groups) as l, (map (fun g => fn d "data" g i) groups) as m. induction l as [|x l IH]; intros m X Nl Nm; cbn; auto. inversion Nl; subst. constructor; [rewrite in_app_iff; intros [K|K]; [auto|apply (X x); [left|]; auto]|]. apply IH; auto. intros b B. apply X. right. auto.
  - intros i i' b _ _ B B'.
    assert (Form : forall j, In b ((if (j <? nran)%Z then map (fun g => fn d "randoms" g j) groups else []) ++ map (fun g => fn d "data" g j) groups) -> exists n g, relative n /\ b = fn d n g j).
    { intros j J. apply in_app_iff in J. destruct J as [J|J]; [destruct (j <? nran)%Z; [|destruct J]|]; apply in_map_iff in J; destruct J as (g & <- & _); [exists "randoms"%string, g|exists "data"%string, g]; split; auto; discriminate. }
    destruct (Form i B) as (n & g & Rn & ->), (Form i' B') as (n' & g' & Rn' & E). apply fn_inj in E; auto. tauto.
Qed.
Print Assumptions C71_no_overwrite.

(** ** Regions *)
Theorem C71_region : forall dec, (get_region dec = "N"%string <-> (32.375 < dec)%R) /\ (get_region dec = "S"%string <-> ~ (32.375 < dec)%R).
Proof.
  intros dec. unfold get_region. assert (E : (32.375 = 259 / 8)%R) by lra. rewrite E. destruct (Rltb (259 / 8) dec) eqn:B; [apply Rltb_true in B|apply Rltb_false in B]; split; split; intros H; auto; try discriminate; lra.
Qed.
Print Assumptions C71_region.
Lemma all_in_true : forall regions region g, all_in regions region g = Ok true <-> forall r, In r g -> zassoc r regions = Some region.
Proof.
  intros regions region. induction g as [|r g IH]; cbn; [split; auto; intros _ r []|]. destruct (zassoc r regions) as [reg|] eqn:E.
  - destruct (String.eqb_spec reg region); [subst; rewrite IH; split; [intros H x [<-|X]; auto|auto]|]. split; [discriminate|]. intros H. specialize (H r (or_introl eq_refl)). congruence.
  - split; [discriminate|]. intros H. specialize (H r (or_introl eq_refl)). congruence.
Qed.
(** Groups of rosettes are kept exactly when every group is in one region. *)
Theorem C71_groups : forall regions groups, (exists out, rosettes_to_region regions groups = Ok out) <-> Forall (fun g => exists reg, together (fun r => zassoc r regions) g reg) groups.
Proof.
  intros regions groups. unfold rosettes_to_region. split.
  - intros [out H]. destruct (map_result (group_region regions) groups) as [names|] eqn:M; [|discriminate]. cbn [bind] in H. destruct (check_groups regions (combine groups names)) as [[]|] eqn:C; [|discriminate]. clear H.
    revert names M C. induction groups as [|g gs IH]; intros names M C; constructor.
    + cbn in M. destruct (group_region regions g) as [reg|] eqn:G; [|discriminate]. cbn [bind] in M. destruct (map_result _ gs) as [ns|]; [|discriminate]. cbn [bind] in M. apply ok_inj_p in M. subst names. cbn in C. destruct (all_in regions reg g) as [[]|] eqn:Al; try discriminate. pose proof (proj1 (all_in_true _ _ _) Al) as Al2.
      exists reg. split; auto. destruct g; [discriminate|discriminate].
    + cbn in M. destruct (group_region regions g) as [reg|] eqn:G; [|discriminate]. cbn [bind] in M. destruct (map_result _ gs) as [ns|]; [|discriminate]. cbn [bind] in M. apply ok_inj_p in M. subst names. cbn in C. destruct (all_in regions reg g) as [[]|]; try discriminate. cbn [bind] in C. eapply IH; eauto.
  - intros F. assert (X : exists names, map_result (group_region regions) groups = Ok names /\ check_groups regions (combine groups names) = Ok tt).
    { induction F as [|g gs (reg & NE & A) F (names & M & C)]; [exists []; auto|]. exists (reg :: names). cbn. assert (G : group_region regions g = Ok reg) by (destruct g as [|r g]; [easy|]; cbn; rewrite (A r (or_introl eq_refl)); auto).
      rewrite G. cbn [bind]. rewrite M. cbn [bind]. split; auto. rewrite (proj2 (all_in_true regions reg g) A). cbn [bind]. auto. }
    destruct X as (names & M & C). rewrite M. cbn [bind]. rewrite C. cbn [bind]. eauto.
Qed.
Print Assumptions C71_groups.
Theorem C71_groups_region : forall regions groups out g reg, rosettes_to_region regions groups = Ok out -> In (g, reg) out -> In g groups /\ together (fun r => zassoc r regions) g reg.
Proof.
  intros regions groups out g reg H I. unfold rosettes_to_region in H. destruct (map_result (group_region regions) groups) as [names|] eqn:M; [|discriminate]. cbn [bind] in H. destruct (check_groups regions (combine groups names)) as [[]|] eqn:C; [|discriminate]. cbn [bind] in H. apply ok_inj_p in H. subst out.
  split; [apply in_combine_l in I; auto|]. revert names M C I. induction groups as [|g0 gs IH]; intros names M C I; [destruct I|]. cbn in M. destruct (group_region regions g0) as [r0|] eqn:G; [|discriminate]. cbn [bind] in M. destruct (map_result _ gs) as [ns|]; [|discriminate]. cbn [bind] in M. apply ok_inj_p in M. subst names. cbn in C, I.
  destruct (all_in regions r0 g0) as [[]|] eqn:Al; try discriminate. cbn [bind] in C. destruct I as [I|I]; [|eapply IH; eauto]. injection I as <- <-. pose proof (proj1 (all_in_true _ _ _) Al) as Al2. split; auto. destruct g0; [discriminate|discriminate].
Qed.
Print Assumptions C71_groups_region.
(** A group with rosettes in the table but in two regions is a ValueError. *)
Theorem C71_mixed : forall regions groups, Forall (fun g => g <> [] /\ forall r, In r g -> zassoc r regions <> None) groups -> (exists g, In g groups /\ exists r s, In r g /\ In s g /\ zassoc r regions <> zassoc s regions) ->
  rosettes_to_region regions groups = Err ValueError.
Proof.
  intros regions groups K (g & G & r & s & Hr & Hs & D). unfold rosettes_to_region.
  assert (T : forall reg l, (forall x, In x l -> zassoc x regions <> None) -> exists b, all_in regions reg l = Ok b).
  { intros reg. induction l as [|x l IH]; intros H; cbn; eauto. destruct (zassoc x regions) eqn:E; [|destruct (H x); [left; auto|auto] ]. destruct (String.eqb _ _); eauto. apply IH. intros; apply H. right. auto. }
  assert (M : exists names, map_result (group_region regions) groups = Ok names).
  { clear -K. induction K as [|g gs [NE A] K [names M] ]; [exists []; auto|]. cbn. destruct g as [|r g]; [easy|]. cbn. destruct (zassoc r regions) eqn:E; [|destruct (A r); [left; auto|auto] ]. cbn [bind]. rewrite M. cbn. eauto. }
  destruct M as [names M]. rewrite M. cbn [bind].
  assert (C : check_groups regions (combine groups names) = Err ValueError); [|rewrite C; reflexivity].
  revert names M. induction K as [|g0 gs [NE A] K IH]; intros names M; [destruct G|]. cbn in M. destruct (group_region regions g0) as [r0|] eqn:G0; [|discriminate]. cbn [bind] in M. destruct (map_result _ gs) as [ns|]; [|discriminate]. cbn [bind] in M. apply ok_inj_p in M. subst names. cbn.
  destruct (T r0 g0 A) as [b Eb]. rewrite Eb. cbn [bind]. destruct b; auto. destruct G as [->|G]; [|apply IH; auto]. exfalso. apply D. pose proof (proj1 (all_in_true regions r0 g) Eb) as Q. rewrite (Q r Hr), (Q s Hs). reflexivity.
Qed.
Print Assumptions C71_mixed.
(** The rosettes of the survey pass the check, and each is in exactly one group. *)
Theorem C71_survey : (exists out, rosettes_to_region (region_rosettes sv3_table) sv3_groups = Ok out) /\ NoDup (List.concat sv3_groups) /\ forall r, In r (map fst sv3_table) <-> In r (List.concat sv3_groups).
Proof.
  split; [|split].
  - apply C71_groups. assert (RS : forall d, (d <= 259 / 8)%R -> get_region d = "S"%string) by (intros d H; unfold get_region; replace (Rltb (259 / 8) d) with false; auto; symmetry; apply Rltb_false; lra).
    assert (RN : forall d, (259 / 8 < d)%R -> get_region d = "N"%string) by (intros d H; unfold get_region; replace (Rltb (259 / 8) d) with true; auto; symmetry; apply Rltb_true; lra).
    unfold region_rosettes, sv3_table, sv3_groups. cbn [map fst snd].
    repeat match goal with |- context [get_region ?d] => first [rewrite (RS d) by lra | rewrite (RN d) by lra] end.
    repeat (apply Forall_cons; [first [solve [exists "N"%string; split; [discriminate|intros r Hr; cbn in Hr; repeat (destruct Hr as [<-|Hr]; [reflexivity|]); destruct Hr] ]|solve [exists "S"%string; split; [discriminate|intros r Hr; cbn in Hr; repeat (destruct Hr as [<-|Hr]; [reflexivity|]); destruct Hr] ] ]|]). constructor.
  - cbn. repeat constructor; cbn; lia.
  - intros r. cbn. lia.
Qed.
Print Assumptions C71_survey.

(** ** Edges *)
Lemma linspace_rising : forall a b n, (a < b)%R -> (2 <= n)%nat -> rising (linspace a b n).
Proof.
  intros a b n H N i Hi. rewrite linspace_length in Hi. rewrite !linspace_nth by lia. assert (P : (0 < INR (n - 1))%R) by (apply lt_0_INR; lia). rewrite S_INR.
  assert (INR i / INR (n - 1) < (INR i + 1) / INR (n - 1))%R by (apply Rmult_lt_compat_r; [apply Rinv_0_lt_compat; auto|lra]). nra.
Qed.
Lemma geomspace_nth : forall a b n i, (i < n)%nat -> nth i (geomspace a b n) 0%R = (a * Rpower (b / a) (INR i / INR (n - 1)))%R.
Proof.
  intros a b n i H. unfold geomspace. set (f := fun i => (a * Rpower (b / a) (INR i / INR (n - 1)))%R). rewrite (nth_indep _ 0%R (f 0%nat)) by (rewrite map_length, seq_length; auto). rewrite map_nth, seq_nth by auto. reflexivity.
Qed.
Lemma geomspace_rising : forall a b n, (0 < a < b)%R -> (2 <= n)%nat -> rising (geomspace a b n).
Proof.
  intros a b n [A B] N i Hi. unfold geomspace in Hi. rewrite map_length, seq_length in Hi. rewrite !geomspace_nth by lia. apply Rmult_lt_compat_l; auto. apply Rpower_lt.
  - apply Rmult_lt_reg_r with a; auto. unfold Rdiv. rewrite Rmult_assoc, Rinv_l by lra. lra.
  - rewrite S_INR. assert (P : (0 < INR (n - 1))%R) by (apply lt_0_INR; lia). apply Rmult_lt_compat_r; [apply Rinv_0_lt_compat; auto|lra].
Qed.
(** Edges of bins rise, and the names of types are checked. *)
Theorem C71_edges : forall corr_type bin_type, match get_edges corr_type bin_type with
  | Ok edges => Forall rising edges /\ List.length edges = (if String.eqb corr_type "theta" then 1 else 2)%nat
  | Err e => e = ValueError end /\
  ((exists edges, get_edges corr_type bin_type = Ok edges) <-> In corr_type ["smu"; "rppi"; "theta"]%string /\ In bin_type ["log"; "lin"]%string).
Proof.
  intros c b. unfold get_edges. cbn [In].
  destruct (String.eqb_spec b "log") as [->|Nl]; [|destruct (String.eqb_spec b "lin") as [->|Nn] ]; cbn [bind String.eqb Ascii.eqb Bool.eqb];
  [| |split; [reflexivity|split; [intros [e E]; discriminate|intros [_ [K|[K|[] ] ] ]; congruence] ] ];
  (destruct (String.eqb_spec c "smu") as [->|N1]; [|destruct (String.eqb_spec c "rppi") as [->|N2]; [|destruct (String.eqb_spec c "theta") as [->|N3] ] ]);
  (split; [first [reflexivity|split; [repeat (constructor; [first [apply linspace_rising; [lra|lia]|apply geomspace_rising; [lra|lia] ]|]); constructor|reflexivity] ]|]);
  first [solve [split; [intros _; auto 10|eauto] ]|split; [intros [e E]; discriminate|intros [ [K|[K|[K|[] ] ] ] _]; congruence] ].
Qed.
Print Assumptions C71_edges.
(** Edges of the second variable, cosine of the angle or separation along the line of sight, mirror each other, and those of the cosine go from -1 to 1: swapping the two galaxies of a pair never drops it. *)
Theorem C71_mirrored : forall corr_type bin_type first second, get_edges corr_type bin_type = Ok [first; second] ->
  (forall i, (i < List.length second)%nat -> nth i second 0%R = (- nth (List.length second - 1 - i) second 0)%R) /\
  (corr_type = "smu"%string -> nth 0 second 0%R = (-1)%R /\ nth (List.length second - 1) second 0%R = 1%R).
Proof.
  assert (Mi : forall a n, (2 <= n)%nat -> forall i, (i < List.length (linspace (- a) a n))%nat -> nth i (linspace (- a) a n) 0%R = (- nth (List.length (linspace (- a) a n) - 1 - i) (linspace (- a) a n) 0)%R).
  { intros a n N i. rewrite linspace_length. intro H. rewrite !linspace_nth by lia. rewrite (minus_INR (n - 1) i) by lia. assert (P : (0 < INR (n - 1))%R) by (apply lt_0_INR; lia). field. lra. }
  intros c b f s. unfold get_edges. intro H.
  destruct (String.eqb b "log"); [|destruct (String.eqb b "lin"); [|discriminate H] ]; cbn [bind] in H;
  (destruct (String.eqb_spec c "smu") as [->|N1]; [|destruct (String.eqb c "rppi"); [|destruct (String.eqb c "theta")] ]); try destruct (String.eqb b "lin"); try discriminate H; injection H as _ <-;
  (split; [first [apply (Mi 1%R)|apply (Mi 200%R)|apply (Mi 40%R)]; lia|]); try contradiction; intros _;
  rewrite linspace_length, !linspace_nth by lia; (split; [cbn [INR]; lra|]); rewrite Rmult_comm; unfold Rdiv;
  assert (P : (INR (201 - 1) <> 0)%R) by (apply not_0_INR; lia); field; exact P.
Qed.
Print Assumptions C71_mirrored.
Example C71_case : catalog_fn (module_outdir true) "data" [12; 13]%Z 7 = Ok "_tests/data_rosettes-12-13_7.fits"%string /\ corr_fn "out/" "smu" [7]%Z 12 = "out/correlation_smu_rosettes-7_12.npy"%string /\
  written (module_outdir true) [[1; 2]]%Z 19 21 = Ok ["_tests/randoms_rosettes-1-2_19.fits"; "_tests/data_rosettes-1-2_19.fits"; "_tests/data_rosettes-1-2_20.fits"]%string /\
  rosettes_to_region [(1, "N"); (2, "S")]%Z%string [[1]; [2; 1]]%Z = Err ValueError /\ (exists edges, get_edges "rppi" "log" = Ok edges).
Proof. repeat split; try reflexivity. eexists. reflexivity. Qed.
