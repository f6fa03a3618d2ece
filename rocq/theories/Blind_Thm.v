(** Properties C42 to C46: blinding. Vocabulary in Blind_Spec.v. *)
Require Import Reals ZArith List Bool String Lra Lia Permutation.
From Verif Require Import Base Vec3 Isometry_Model Isometry_Spec Isometry_Proof Sky_Model Sky_Spec Sky_Proof Sky_Thm Cutsky_Model Box_Model Rsd_Model Rsd_Spec Rsd_Proof Density_Proof Mock_Model Mock_Spec Mock_Thm Mock_Thm2 Blind_Model Blind_Spec.
Import ListNotations.
Open Scope R_scope.

(** Dictionaries. *)
Lemma assoc_set : forall {A} (l : list (string * A)) n a m, assoc m (set_item n a l) = if String.eqb n m then Some a else assoc m l.
Proof.
  intros A. induction l as [|[k b] l IH]; intros n a m; cbn.
  - destruct (String.eqb n m); auto.
  - destruct (String.eqb_spec k n); cbn.
    + subst. destruct (String.eqb n m); auto.
    + rewrite IH. destruct (String.eqb_spec k m); auto. destruct (String.eqb_spec n m); auto. congruence.
Qed.
Lemma assoc_update : forall {A} (items l : list (string * A)) m, NoDup (map fst items) -> assoc m (update l items) = match assoc m items with Some a => Some a | None => assoc m l end.
Proof.
  intros A. unfold update. induction items as [|[n a] items IH]; intros l m ND; cbn; auto. inversion ND as [|? ? NI ND']; subst. cbn in IH. rewrite IH by auto. rewrite assoc_set. cbn [fst snd].
  destruct (String.eqb_spec n m).
  - subst. replace (assoc m items) with (@None A); auto. symmetry. clear -NI. induction items as [|[k b] items IH]; cbn in *; auto. destruct (String.eqb_spec k m); [subst; tauto|apply IH; tauto].
  - auto.
Qed.
Lemma assoc_in : forall {A} (l : list (string * A)) n a, NoDup (map fst l) -> In (n, a) l -> assoc n l = Some a.
Proof.
  intros A. induction l as [|[k b] l IH]; intros n a ND I0; cbn in *; [contradiction|]. inversion ND as [|? ? NI ND']; subst. destruct I0 as [E|I0]; [injection E as -> ->; rewrite String.eqb_refl; auto|].
  destruct (String.eqb_spec k n); [subst; elim NI; apply (in_map fst) in I0; auto|auto].
Qed.
Lemma assoc_none : forall {A} (l : list (string * A)) n, ~ In n (map fst l) -> assoc n l = None.
Proof. intros A. induction l as [|[k b] l IH]; intros n NI; cbn in *; auto. destruct (String.eqb_spec k n); [subst; tauto|apply IH; tauto]. Qed.

(** The drawn values. *)
Definition is_derived (name : string) : bool := (String.eqb name "f" || String.eqb name "fnl")%bool.
Lemma draw_spec : forall c u params i z upd derived, in_unit u -> draw_params c u i params z = Ok (upd, derived) ->
  map fst upd = filter (fun n => negb (is_derived n)) (map fst params) /\ map fst derived = filter is_derived (map fst params) /\
  forall name sigma, In (name, sigma) params -> exists v b j, get_from_cosmo c name z = Ok v /\ b = v + 2 * sigma * (u j - 1 / 2) /\ In (name, b) (if is_derived name then derived else upd).
Proof.
  intros c u params. induction params as [|[name sigma] params IH]; intros i z upd derived U H; cbn in H.
  - injection H as <- <-. split; [auto|split; [auto|]]. intros n s [].
  - destruct (get_from_cosmo c name z) as [v|] eqn:E; [|discriminate]. cbn [bind] in H. destruct (draw_params c u (S i) params z) as [[upd' derived']|] eqn:D; [|discriminate]. cbn [bind] in H.
    destruct (IH (S i) z upd' derived' U D) as (I1 & I2 & I3). change (String.eqb name "f" || String.eqb name "fnl")%bool with (is_derived name) in H. cbn [map fst filter]. destruct (is_derived name) eqn:Q; injection H as <- <-; cbn [negb map fst]; rewrite ?I1, ?I2; (split; [auto|split; [auto|]]);
      intros n s [K|K]; try (injection K as <- <-; exists v, (v + 2 * sigma * (u i - 1 / 2)), i; rewrite Q; split; [auto|split; [auto|left; auto]]);
      destruct (I3 n s K) as (v' & b & j & A1 & A2 & A3); exists v', b, j; (split; [auto|split; [auto|]]); destruct (is_derived n); auto; right; auto.
Qed.
Lemma filter_nodup : forall {A} (p : A -> bool) l, NoDup l -> NoDup (filter p l).
Proof. intros; apply NoDup_filter; auto. Qed.
Lemma not_derived : forall name, is_derived name = false -> name <> "f"%string /\ name <> "fnl"%string.
Proof. intros name H. unfold is_derived in H. apply orb_false_iff in H. rewrite !String.eqb_neq in H. auto. Qed.
(** Reading a parameter other than f and fnl does not look at them. *)
Lemma derived_other : forall c derived name z, NoDup (map fst derived) -> (forall n, In n (map fst derived) -> is_derived n = true) -> is_derived name = false ->
  get_from_cosmo (Cosmology (c_h c) (c_omega0 c) (c_omega c) (update (c_derived c) derived) (c_sigma8 c) (c_fsigma8 c) (c_attr c) (c_distance c)) name z = get_from_cosmo c name z.
Proof.
  intros c derived name z ND SD ID. assert (N0 : forall m, is_derived m = false -> assoc m (update (c_derived c) derived) = assoc m (c_derived c)).
  { intros m M. rewrite assoc_update by auto. rewrite assoc_none; auto. intro I0. apply SD in I0. congruence. }
  assert (F8 : assoc "fsigma8" (update (c_derived c) derived) = assoc "fsigma8" (c_derived c)) by (apply N0; reflexivity). assert (S8 : assoc "sigma8" (update (c_derived c) derived) = assoc "sigma8" (c_derived c)) by (apply N0; reflexivity).
  unfold get_from_cosmo, get_sigma8. cbn [c_h c_omega0 c_omega c_derived c_sigma8 c_fsigma8 c_attr c_distance]. unfold get_omega. cbn [c_h c_omega0 c_omega c_derived c_sigma8 c_fsigma8 c_attr c_distance].
  rewrite (N0 name ID). rewrite F8, S8. auto.
Qed.
(** C42. Each parameter asked for is drawn within its uncertainty around the value of the fiducial cosmology, at redshift [z] when there
    is one. What is missing is that this value be the one of today for density parameters, which is what they are blinded as: see below. *)
Theorem C42_interval_partial : forall clone fid u params z blind name sigma, in_unit u -> NoDup (map fst params) -> clone_sets clone fid (map fst params) ->
  get_cosmo_blind clone fid u (Some params) z = Ok blind -> In (name, sigma) params -> 0 < sigma ->
  exists v b, get_from_cosmo fid name z = Ok v /\ get_from_cosmo blind name None = Ok b /\ v - sigma <= b < v + sigma.
Proof.
  intros clone fid u params z blind name sigma U ND CS H I0 S0. unfold get_cosmo_blind in H. destruct (draw_params fid u 0 params z) as [[upd derived]|] eqn:D; [|discriminate]. cbn [bind] in H. apply ok_inj in H. subst blind.
  destruct (draw_spec _ _ _ _ _ _ _ U D) as (K1 & K2 & K3). destruct (K3 name sigma I0) as (v & b & j & V1 & V2 & V3). exists v, b. split; auto.
  assert (ND1 : NoDup (map fst upd)) by (rewrite K1; apply filter_nodup; auto). assert (ND2 : NoDup (map fst derived)) by (rewrite K2; apply filter_nodup; auto).
  assert (B : v - sigma <= b < v + sigma) by (specialize (U j); subst b; nra). split; auto. destruct (is_derived name) eqn:Q.
  - unfold get_from_cosmo. cbn [c_derived]. assert (P1 : String.prefix "omega" name = false /\ String.prefix "Omega" name = false). { unfold is_derived in Q. apply orb_true_iff in Q. destruct Q as [Q|Q]; apply String.eqb_eq in Q; subst name; auto. }
    destruct P1 as [-> ->]. rewrite assoc_update by auto. rewrite (assoc_in _ _ _ ND2 V3). auto.
  - rewrite derived_other; auto.
    + destruct (not_derived _ Q). apply CS; auto; [apply in_map_iff; exists (name, sigma); auto|]. apply assoc_in; auto.
    + intros n N. rewrite K2 in N. apply filter_In in N. tauto.
Qed.
Print Assumptions C42_interval_partial.
(** The values read are the ones that the names stand for. *)
Lemma prefix_sub : forall p name, String.prefix p name = true -> name = (p ++ substring (String.length p) (String.length name - String.length p) name)%string.
Proof.
  assert (W : forall name, substring 0 (String.length name) name = name) by (induction name as [|a name IH]; cbn; [|rewrite IH]; auto).
  induction p as [|a p IH]; intros name H.
  - cbn [append String.length]. rewrite Nat.sub_0_r. auto.
  - destruct name as [|b name]; [discriminate|]. cbn in H. destruct (Ascii.ascii_dec a b); [subst b|discriminate]. cbn [append String.length Nat.sub substring]. f_equal. apply IH. auto.
Qed.
Lemma sub_prefix : forall p suffix, String.prefix p (p ++ suffix) = true /\ substring (String.length p) (String.length (p ++ suffix) - String.length p) (p ++ suffix) = suffix.
Proof.
  assert (W : forall name, substring 0 (String.length name) name = name) by (induction name as [|a name IH]; cbn; [|rewrite IH]; auto).
  induction p as [|a p IH]; intros suffix.
  - cbn [append String.length]. rewrite Nat.sub_0_r, W. split; auto. destruct suffix; auto.
  - destruct (IH suffix) as [I1 I2]. cbn [append String.length Nat.sub substring String.prefix]. destruct (Ascii.ascii_dec a a); [|congruence]. auto.
Qed.
Lemma amplitude_read : forall c name of z s, get_sigma8 c name of z = Ok s <-> amplitude c name of z s.
Proof.
  intros c name of z s. unfold get_sigma8, amplitude. destruct (assoc name (c_derived c)) as [v|].
  - split; [intros H; apply ok_inj in H; subst; auto|intros [H|[H _]]; congruence].
  - destruct z as [z|]; cbn [check_z bind]; split; try discriminate; try (intros H; apply ok_inj in H; right; eauto); intros [H|(_ & z0 & H & K)]; try discriminate; congruence.
Qed.
Lemma density_read : forall c suffix z o, get_omega c suffix z = Ok o <-> density c suffix z o.
Proof.
  intros c suffix z o. unfold get_omega, density. destruct z as [z|]; [|tauto]. destruct (c_omega c suffix) as [g|]; cbn [bind]; split; try discriminate.
  - intros H. apply ok_inj in H. eauto.
  - intros (g' & H & ->). apply ok_inj in H. subst. auto.
  - intros (g' & H & _). discriminate.
Qed.
Theorem C42_values : forall c name z v, get_from_cosmo c name z = Ok v <-> parameter c z name v.
Proof.
  intros c name z v. split.
  - intros H. unfold get_from_cosmo in H. destruct (String.prefix "omega" name) eqn:P1.
    { rewrite (prefix_sub _ _ P1). destruct (get_omega c _ z) as [o|] eqn:E in H; [|discriminate]. cbn [bind] in H. apply ok_inj in H. subst v. replace (o * c_h c ^ 2) with (o * (c_h c * c_h c)) by ring. apply Reduced. apply density_read. exact E. }
    destruct (String.prefix "Omega" name) eqn:P2; [rewrite (prefix_sub _ _ P2); apply Density, density_read; exact H|].
    assert (DN : density_name name = false) by (unfold density_name; rewrite P1, P2; auto).
    destruct (assoc name (c_derived c)) as [w|] eqn:A; [apply ok_inj in H; subst; apply Recorded; auto|].
    destruct (String.eqb_spec name "fsigma8"); [subst; apply Fsigma8, amplitude_read; auto|].
    destruct (String.eqb_spec name "sigma8"); [subst; apply Sigma8, amplitude_read; auto|].
    destruct (String.eqb_spec name "f").
    { subst. destruct (get_sigma8 c "fsigma8" _ z) as [a|] eqn:E1; [|discriminate]. cbn [bind] in H. destruct (get_sigma8 c "sigma8" _ z) as [b|] eqn:E2; [|discriminate]. cbn [bind] in H. unfold fdiv in H. destruct (Req_EM_T b 0) as [|Q]; [discriminate|]. apply ok_inj in H. subst v. apply Growth; auto; apply amplitude_read; auto. }
    destruct (String.eqb_spec name "fnl"); [subst; apply ok_inj in H; subst; apply NonGaussian; auto|].
    apply Attribute; auto. cbn. intros [K|[K|[K|[K|[]]]]]; congruence.
  - intros H. unfold get_from_cosmo. destruct H as [suffix o D|suffix o D|name v DN A|s A|s A|s fs A A1 A2 Q|A|name v DN NI A H].
    + destruct (sub_prefix "omega" suffix) as [-> X]. cbn [String.length] in X. rewrite X. apply density_read in D. rewrite D. cbn [bind]. f_equal. ring.
    + replace (String.prefix "omega" ("Omega" ++ suffix)) with false by reflexivity. destruct (sub_prefix "Omega" suffix) as [-> X]. cbn [String.length] in X. rewrite X. apply density_read; auto.
    + unfold density_name in DN. apply orb_false_iff in DN. destruct DN as [-> ->]. rewrite A. auto.
    + cbn. apply amplitude_read in A. unfold get_sigma8 in A |- *. destruct (assoc "sigma8" (c_derived c)); auto.
    + cbn. apply amplitude_read in A. unfold get_sigma8 in A |- *. destruct (assoc "fsigma8" (c_derived c)); auto.
    + apply amplitude_read in A1, A2. cbn. rewrite A, A2. cbn [bind]. rewrite A1. cbn [bind]. unfold fdiv. destruct (Req_EM_T s 0); [contradiction|auto].
    + cbn. rewrite A. auto.
    + unfold density_name in DN. apply orb_false_iff in DN. destruct DN as [-> ->]. rewrite A. cbn in NI. destruct (String.eqb_spec name "fsigma8"); [subst; tauto|]. destruct (String.eqb_spec name "sigma8"); [subst; tauto|]. destruct (String.eqb_spec name "f"); [subst; tauto|]. destruct (String.eqb_spec name "fnl"); [subst; tauto|]. auto.
Qed.
Print Assumptions C42_values.
(** A parameter that is not asked for keeps its value. *)
Theorem C42_others : forall clone fid u params z blind name, in_unit u -> NoDup (map fst params) -> clone_keeps clone fid name -> ~ In name (map fst params) -> is_derived name = false ->
  get_cosmo_blind clone fid u (Some params) z = Ok blind -> get_from_cosmo blind name None = get_from_cosmo fid name None.
Proof.
  intros clone fid u params z blind name U ND CK NI ID H. unfold get_cosmo_blind in H. destruct (draw_params fid u 0 params z) as [[upd derived]|] eqn:D; [|discriminate]. cbn [bind] in H. apply ok_inj in H. subst blind.
  destruct (draw_spec _ _ _ _ _ _ _ U D) as (K1 & K2 & K3). rewrite derived_other; auto.
  - apply CK. apply assoc_none. rewrite K1. intro I0. apply filter_In in I0. tauto.
  - rewrite K2. apply filter_nodup. auto.
  - intros n N. rewrite K2 in N. apply filter_In in N. tauto.
Qed.
Print Assumptions C42_others.
(** Parameters added at the end of the dictionary do not change the values of the first ones. *)
Lemma draw_app : forall c u params more i z upd derived, draw_params c u i (params ++ more) z = Ok (upd, derived) ->
  exists upd1 derived1 upd2 derived2, draw_params c u i params z = Ok (upd1, derived1) /\ upd = (upd1 ++ upd2)%list /\ derived = (derived1 ++ derived2)%list.
Proof.
  intros c u params. induction params as [|[name sigma] params IH]; intros more i z upd derived H; cbn in H.
  - exists [], [], upd, derived. auto.
  - destruct (get_from_cosmo c name z) as [v|] eqn:E; [|discriminate]. cbn [bind] in H. destruct (draw_params c u (S i) (params ++ more) z) as [[upd' derived']|] eqn:D; [|discriminate]. cbn [bind] in H.
    destruct (IH _ _ _ _ _ D) as (u1 & d1 & u2 & d2 & I1 & -> & ->). cbn [draw_params]. rewrite E. cbn [bind]. rewrite I1. cbn [bind].
    destruct (String.eqb name "f" || String.eqb name "fnl")%bool; injection H as <- <-; [exists u1, ((name, v + 2 * sigma * (u i - 1 / 2)) :: d1), u2, d2 | exists ((name, v + 2 * sigma * (u i - 1 / 2)) :: u1), d1, u2, d2]; auto.
Qed.
Lemma blind_value : forall clone fid u params z blind upd derived name b, in_unit u -> NoDup (map fst params) -> clone_sets clone fid (map fst params) ->
  draw_params fid u 0 params z = Ok (upd, derived) -> get_cosmo_blind clone fid u (Some params) z = Ok blind -> In name (map fst params) -> In (name, b) (if is_derived name then derived else upd) ->
  get_from_cosmo blind name None = Ok b.
Proof.
  intros clone fid u params z blind upd derived name b U ND CS D H I0 V3. unfold get_cosmo_blind in H. rewrite D in H. cbn [bind] in H. apply ok_inj in H. subst blind.
  destruct (draw_spec _ _ _ _ _ _ _ U D) as (K1 & K2 & K3).
  assert (ND1 : NoDup (map fst upd)) by (rewrite K1; apply filter_nodup; auto). assert (ND2 : NoDup (map fst derived)) by (rewrite K2; apply filter_nodup; auto).
  destruct (is_derived name) eqn:Q.
  - unfold get_from_cosmo. cbn [c_derived]. assert (P1 : String.prefix "omega" name = false /\ String.prefix "Omega" name = false). { unfold is_derived in Q. apply orb_true_iff in Q. destruct Q as [Q|Q]; apply String.eqb_eq in Q; subst name; auto. }
    destruct P1 as [-> ->]. rewrite assoc_update by auto. rewrite (assoc_in _ _ _ ND2 V3). auto.
  - rewrite derived_other; auto.
    + destruct (not_derived _ Q). apply CS; auto. apply assoc_in; auto.
    + intros n N. rewrite K2 in N. apply filter_In in N. tauto.
Qed.
Theorem C42_prefix : forall clone fid u params more z blind blind' name, in_unit u -> NoDup (map fst (params ++ more)) -> clone_sets clone fid (map fst (params ++ more)) ->
  get_cosmo_blind clone fid u (Some params) z = Ok blind -> get_cosmo_blind clone fid u (Some (params ++ more)%list) z = Ok blind' -> In name (map fst params) ->
  get_from_cosmo blind' name None = get_from_cosmo blind name None.
Proof.
  intros clone fid u params more z blind blind' name U ND CS H1 H2 I0.
  assert (D2 : exists upd derived, draw_params fid u 0 (params ++ more) z = Ok (upd, derived)). { unfold get_cosmo_blind in H2. destruct (draw_params fid u 0 (params ++ more) z) as [[upd derived]|]; [eauto|discriminate]. }
  destruct D2 as (upd & derived & D2). destruct (draw_app _ _ _ _ _ _ _ _ D2) as (u1 & d1 & u2 & d2 & D1 & -> & ->). destruct (draw_spec _ _ _ _ _ _ _ U D1) as (_ & _ & K3).
  apply in_map_iff in I0. destruct I0 as [[n s] [E I0]]. cbn in E. subst n. destruct (K3 name s I0) as (v & b & j & _ & _ & V3).
  rewrite map_app in ND, CS. assert (IN1 : In name (map fst params)) by (apply in_map_iff; exists (name, s); auto).
  transitivity (Ok b : result R).
  - eapply (blind_value clone fid u (params ++ more) z blind' _ _ name b U); [rewrite map_app; auto|rewrite map_app; auto|exact D2|exact H2|rewrite map_app; apply in_or_app; auto|destruct (is_derived name); apply in_or_app; auto].
  - symmetry. eapply (blind_value clone fid u params z blind _ _ name b U); [| |exact D1|exact H1|exact IN1|exact V3].
    + clear -ND. induction (map fst params) as [|a l IH]; [constructor|]. cbn in ND. inversion ND as [|? ? NI ND']; subst. constructor; auto. intro X. apply NI. apply in_or_app. auto.
    + intros up n w N. apply CS. apply in_or_app. auto.
Qed.
Print Assumptions C42_prefix.
(** The growth rate can only be blinded at a redshift. *)
Theorem C42_growth_needs_redshift : forall clone fid u params sigma, assoc "f" (c_derived fid) = None -> assoc "fsigma8" (c_derived fid) = None -> In ("f"%string, sigma) params ->
  exists e, get_cosmo_blind clone fid u (Some params) None = Err e.
Proof.
  intros clone fid u params sigma N1 N2 I0. unfold get_cosmo_blind. assert (H : forall l i, In ("f"%string, sigma) l -> exists e, draw_params fid u i l None = Err e).
  { induction l as [|[n s] l IH]; intros i []; cbn [draw_params].
    - injection H as -> ->. unfold get_from_cosmo. cbn [String.prefix]. cbn. rewrite N1. unfold get_sigma8. rewrite N2. cbn. eauto.
    - destruct (get_from_cosmo fid n None); cbn [bind]; [|eauto]. destruct (IH (S i) H) as [e ->]. cbn. eauto. }
  destruct (H params 0%nat I0) as [e ->]. cbn. eauto.
Qed.
Print Assumptions C42_growth_needs_redshift.

(** A cosmology, and a clone, to show that the hypotheses are met. *)
Definition toy_cosmology : cosmology :=
  Cosmology 1 (fun s => if String.eqb s "_m" then Ok (3 / 10) else Err AttributeError) (fun s => if String.eqb s "_m" then Ok (fun z => 3 / 10 + z / 10) else Err AttributeError) []
    (fun _ => 1) (fun _ => 1 / 2) (fun s => if String.eqb s "w0_fld" then Ok (-1) else if String.eqb s "wa_fld" then Ok 0 else Err AttributeError) (fun z => z).
Definition toy_clone (c : cosmology) (upd : list (string * R)) : cosmology :=
  Cosmology (c_h c) (fun s => match assoc ("Omega" ++ s)%string upd with Some v => Ok v | None => c_omega0 c s end) (c_omega c) (c_derived c) (c_sigma8 c) (c_fsigma8 c)
    (fun s => match assoc s upd with Some v => Ok v | None => c_attr c s end) (c_distance c).
Lemma toy_sets : forall names, incl names ["w0_fld"; "wa_fld"; "Omega_m"; "f"; "fnl"]%string -> clone_sets toy_clone toy_cosmology names.
Proof. intros names S0 upd name v I0 F1 F2 E. apply S0 in I0. cbn in I0. destruct I0 as [<-|[<-|[<-|[<-|[<-|[]]]]]]; try contradiction; unfold get_from_cosmo, get_omega, toy_clone; cbn; rewrite E; auto. Qed.
(** The order of the dictionary matters: the draws are taken in that order. *)
Theorem C42_order_refuted : exists clone fid u params params' blind blind', in_unit u /\ Permutation params params' /\ NoDup (map fst params) /\ clone_sets clone fid (map fst params) /\
  get_cosmo_blind clone fid u (Some params) None = Ok blind /\ get_cosmo_blind clone fid u (Some params') None = Ok blind' /\ get_from_cosmo blind "w0_fld" None <> get_from_cosmo blind' "w0_fld" None.
Proof.
  exists toy_clone, toy_cosmology, (fun i => match i with 0%nat => 0 | _ => 1 / 2 end), [("w0_fld", 5 / 100); ("wa_fld", 2 / 10)]%string, [("wa_fld", 2 / 10); ("w0_fld", 5 / 100)]%string. do 2 eexists.
  split; [intros [|i]; lra|]. split; [constructor|]. split; [repeat constructor; cbn; intuition discriminate|]. split; [apply toy_sets; intros n; cbn; tauto|].
  split; [reflexivity|]. split; [reflexivity|]. unfold get_from_cosmo. cbn. intro H. apply ok_inj in H. lra.
Qed.
Print Assumptions C42_order_refuted.
(** With a redshift, which the growth rate needs, the matter density is drawn around its value at that redshift, while it is set as the one of today. *)
Theorem C42_density_at_redshift_refuted : exists clone fid u params z sigma v b blind, in_unit u /\ NoDup (map fst params) /\ clone_sets clone fid (map fst params) /\ In ("Omega_m"%string, sigma) params /\ 0 < sigma /\
  get_cosmo_blind clone fid u (Some params) (Some z) = Ok blind /\ get_from_cosmo fid "Omega_m" None = Ok v /\ get_from_cosmo blind "Omega_m" None = Ok b /\ ~ (v - sigma <= b < v + sigma).
Proof.
  exists toy_clone, toy_cosmology, (fun i => 1 / 2), [("Omega_m", 2 / 100); ("f", 5 / 100)]%string, 1, (2 / 100). do 3 eexists.
  split; [intros i; lra|]. split; [repeat constructor; cbn; intuition discriminate|]. split; [apply toy_sets; intros n; cbn; tauto|]. split; [left; auto|]. split; [lra|].
  split; [unfold get_cosmo_blind; cbn; unfold get_from_cosmo; cbn; unfold get_sigma8; cbn; unfold fdiv; destruct (Req_EM_T 1 0); [lra|]; cbn; reflexivity|].
  split; [reflexivity|]. split; [reflexivity|]. lra.
Qed.
Print Assumptions C42_density_at_redshift_refuted.
Example C42_case : exists blind, get_cosmo_blind toy_clone toy_cosmology (fun _ => 1 / 4) None (Some 1) = Ok blind /\ clone_sets toy_clone toy_cosmology (map fst default_params) /\ NoDup (map fst default_params) /\
  clone_keeps toy_clone toy_cosmology "h" /\ get_from_cosmo blind "f" None = Ok (1 / 2 - 5 / 200) /\ get_from_cosmo blind "w0_fld" None = Ok (-1 - 5 / 200).
Proof.
  eexists. split; [unfold get_cosmo_blind; cbn; unfold get_from_cosmo; cbn; unfold get_sigma8; cbn; unfold fdiv; destruct (Req_EM_T 1 0); [lra|]; cbn; reflexivity|].
  split; [apply toy_sets; intros n; cbn; tauto|]. split; [repeat constructor; cbn; intuition discriminate|]. split; [intros upd E; unfold get_from_cosmo, toy_clone; cbn; rewrite E; auto|].
  unfold get_from_cosmo; cbn. split; f_equal; lra.
Qed.
