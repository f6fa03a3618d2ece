(** Property C87: cases, and what zero uncertainties change. Vocabulary in Blind_Spec.v and Proc_Spec.v. *)
Require Import Reals ZArith String List Bool Lra Lia.
From Verif Require Import Base Vec3 Isometry_Model Isometry_Spec Isometry_Proof Sky_Model Sky_Spec Sky_Proof Cutsky_Model Box_Model Rsd_Model Mock_Model Blind_Model Blind_Spec Blind_Thm Blind_Thm2 Blind_Thm4 Proc_Model Proc_Spec Proc_Proof Proc_Thm.
Import ListNotations.
Open Scope R_scope.

(** A fiducial cosmology with distances proportional to redshift, clones whose slope depends on w0_fld and Omega_m, and reconstructions with shifts along the line of sight. *)
Definition with_slope (slope : R) : cosmology :=
  Cosmology 1 (fun s => if String.eqb s "_m" then Ok (3 / 10) else Err AttributeError) (fun s => if String.eqb s "_m" then Ok (fun z => 3 / 10 + z / 10) else Err AttributeError) []
    (fun _ => 1) (fun _ => 1 / 2) (fun s => if String.eqb s "w0_fld" then Ok (-1) else Err AttributeError) (fun z => slope * z).
Definition case_fid : cosmology := with_slope 3000.
Definition case_clone (c : cosmology) (upd : list (string * R)) : cosmology :=
  with_slope (3000 * (1 + (match assoc "w0_fld" upd with Some w => w | None => -1 end + 1) + (match assoc "Omega_m" upd with Some o => o | None => 3 / 10 end - 3 / 10))).
Definition case_cp : cosmoprimo := Cosmoprimo (fun name => if String.eqb name "DESI" then Some (fun params => match params with [] => Ok case_fid | _ => Err ValueError end) else None) (fun _ => Err ValueError).
Definition case_rc : reconstructions := Reconstructions
  (fun bias f dpos dw rpos rw => Png (pg_freq wave_png) (pg_box wave_png) (pg_n wave_png) (pg_delta wave_png) bias 15 15 (pg_readout wave_png) (pg_shotnoise wave_png) (pg_tk wave_png) (pg_pk wave_png) 1)
  (fun bias f dpos dw rpos rw => Recon f (map (vscale (1 / 10)))).
Lemma case_sound : sound case_rc.
Proof. intros bias f dpos dw rpos rw. cbn. rewrite map_length. repeat split; auto; apply wave_png_readout. Qed.
Lemma case_means : means case_cp (CName "DESI") case_fid.
Proof. econstructor; reflexivity. Qed.
Lemma case_sight : forall bias f dw rpos rw l, along_sight l (fun s => 300 * snd s) (r_shifts (rc_rsd case_rc bias f (place case_fid l) dw rpos rw) (place case_fid l)).
Proof.
  intros. unfold along_sight, place. cbn [rc_rsd case_rc r_shifts]. rewrite map_map. apply map_ext. intros s. destruct (direction s) as [x y z]. cbn [c_distance case_fid with_slope]. unfold vscale. cbn [vx vy vz]. f_equal; field.
Qed.
Lemma case_inverse : forall x y, line_inverse (c_distance case_fid) x = Ok y -> c_distance case_fid y = x.
Proof. intros x y. unfold line_inverse, fdiv. cbn. destruct (Req_EM_T (3000 * 1) 0); [lra|]. intro H. apply ok_inj_p in H. subst y. field. Qed.
Lemma slope_inverse : forall s x, s <> 0 -> line_inverse (c_distance (with_slope s)) x = Ok (x / s).
Proof. intros s x N. unfold line_inverse, fdiv. cbn. destruct (Req_EM_T (s * 1) 0); [exfalso; apply N; lra|]. rewrite Rmult_1_r. auto. Qed.
Lemma case_exact : forall s, on_sky s -> on_sky s /\ 0 < c_distance case_fid (snd s) /\ inverse_at (line_inverse (c_distance case_fid)) (c_distance case_fid) (snd s).
Proof.
  intros [[ra dec] r] O. split; [exact O|]. destruct O as (_ & _ & O). unfold inverse_at, case_fid. rewrite slope_inverse by lra. cbn [c_distance with_slope snd]. split; [lra|f_equal; field].
Qed.
Lemma growth_half : growth_rate case_fid (Some 1) (1 / 2 / 1).
Proof. unfold growth_rate, get_from_cosmo, get_sigma8. cbn. unfold fdiv. destruct (Req_EM_T 1 0); [lra|auto]. Qed.
Definition case_params : list (string * R) := [("w0_fld", 5 / 100); ("f", 5 / 100); ("fnl", 10)]%string.
Lemma case_blind : exists blind, get_cosmo_blind case_clone case_fid (fun _ => 3 / 4) (Some case_params) (Some 1) = Ok blind /\ (forall z, c_distance blind z = 3075 * z) /\
  growth_rate blind None (525 / 1000) /\ get_from_cosmo blind "fnl" None = Ok 5.
Proof.
  pose proof growth_half as G. unfold growth_rate in G. unfold get_cosmo_blind, case_params. cbn [draw_params]. change (get_from_cosmo case_fid "w0_fld" (Some 1)) with (Ok (-1) : result R). cbn [bind]. rewrite G. cbn [bind]. change (get_from_cosmo case_fid "fnl" (Some 1)) with (Ok 0 : result R). cbn [bind].
  cbn. eexists. split; [reflexivity|]. split; [intros z; cbn; lra|]. unfold growth_rate, get_from_cosmo. cbn. split; f_equal; lra.
Qed.
(** A case with two data and one random object, given to the procedure with a redshift. *)
Example C87_case : exists blind z1, means case_cp (CName "DESI") case_fid /\ get_cosmo_blind case_clone case_fid (fun _ => 3 / 4) (Some case_params) (Some 1) = Ok blind /\ floating (cast None F8) = true /\ sound case_rc /\
  growth_rate case_fid (Some 1) (1 / 2 / 1) /\ 1 / 2 / 1 <> 0 /\ growth_rate blind None (525 / 1000) /\ get_from_cosmo blind "fnl" None = Ok 5 /\ weights_fit None (List.length [(350, -60, 1 / 2)]) /\
  (let k := fun s : R * R * R => 300 * snd s in let l := [(10, 20, 1); (200, 5, 2)] in let m := [(350, -60, 1 / 2)] in
   along_sight l k (r_shifts (rc_rsd case_rc (14 / 10) (1 / 2 / 1) (place case_fid l) None (place case_fid m) None) (place case_fid l)) /\
   (forall x y, line_inverse (c_distance case_fid) x = Ok y -> c_distance case_fid y = x) /\
   Forall (fun s => on_sky s /\ 0 < c_distance case_fid (snd s) + (525 / 1000 / (1 / 2 / 1) - 1) * k s /\ line_inverse (c_distance case_fid) (c_distance case_fid (snd s) + (525 / 1000 / (1 / 2 / 1) - 1) * k s) = Ok (z1 s) /\
     0 < z1 s /\ 0 < c_distance blind (z1 s) /\ exists y, line_inverse (c_distance case_fid) (c_distance blind (z1 s)) = Ok y) l /\
   Forall (fun s => on_sky s /\ 0 < c_distance blind (snd s) /\ exists y, line_inverse (c_distance case_fid) (c_distance blind (snd s)) = Ok y) m) /\
  c_distance blind 1 <> c_distance case_fid 1.
Proof.
  destruct case_blind as (blind & B & DB & GB & FB). exists blind, (fun s => (c_distance case_fid (snd s) + (525 / 1000 / (1 / 2 / 1) - 1) * (300 * snd s)) / 3000).
  split; [apply case_means|]. split; [auto|]. split; [auto|]. split; [apply case_sound|]. split; [apply growth_half|]. split; [lra|]. split; [auto|]. split; [auto|]. split; [exact Logic.I|]. split; [|rewrite DB; cbn; lra].
  cbv zeta. split; [apply case_sight|]. split; [apply case_inverse|]. unfold case_fid. split.
  - repeat constructor; try rewrite !DB; cbn; try lra; try (apply slope_inverse; lra); try (eexists; apply slope_inverse; lra).
  - repeat constructor; try rewrite !DB; cbn; try lra; try (eexists; apply slope_inverse; lra).
Qed.
(** The scale of the weights: the reconstruction of the case has a density contrast with a single scale. *)
Example C87_weights_case : let g := rc_png case_rc (14 / 10) (1 / 2 / 1) [] None [V 0 0 1] None in 0 < 2 * PI /\ only_scale (pg_freq g) (pg_box g) (pg_n g) (2 * PI) (pg_delta g).
Proof. pose proof PI_RGT_0. split; [lra|apply wave_png_scale]. Qed.
(** Hypotheses of C87_nothing and C87_undo. *)
Example C87_nothing_case : clone_same case_clone case_fid /\ (forall name sigma, In (name, sigma) [("w0_fld", 0); ("f", 0); ("fnl", 0)]%string -> sigma = 0 /\ steady name) /\
  (exists blind, get_cosmo_blind case_clone case_fid (fun _ => 3 / 4) (Some [("w0_fld", 0); ("f", 0); ("fnl", 0)]%string) (Some 1) = Ok blind) /\ get_from_cosmo case_fid "fnl" (Some 1) = Ok 0 /\
  Forall (fun s => on_sky s /\ 0 < c_distance case_fid (snd s) /\ inverse_at (line_inverse (c_distance case_fid)) (c_distance case_fid) (snd s)) ([(10, 20, 1); (200, 5, 2)] ++ [(350, -60, 1 / 2)]).
Proof.
  split; [|split; [|split; [|split] ] ].
  - intros upd H z. cbn. replace (match assoc "w0_fld" upd with Some w => w | None => -1 end) with (-1). replace (match assoc "Omega_m" upd with Some o => o | None => 3 / 10 end) with (3 / 10). 1:{ ring. }
    + destruct (assoc "Omega_m" upd) as [o|] eqn:E; auto. assert (I0 : In ("Omega_m"%string, o) upd). { clear H. induction upd as [|[n v] upd IH]; cbn in E; [discriminate|]. destruct (String.eqb_spec n "Omega_m"); [injection E as ->; subst; left; auto|right; auto]. } apply H in I0. cbn in I0. apply ok_inj_p in I0. auto.
    + destruct (assoc "w0_fld" upd) as [o|] eqn:E; auto. assert (I0 : In ("w0_fld"%string, o) upd). { clear H. induction upd as [|[n v] upd IH]; cbn in E; [discriminate|]. destruct (String.eqb_spec n "w0_fld"); [injection E as ->; subst; left; auto|right; auto]. } apply H in I0. cbn in I0. apply ok_inj_p in I0. auto.
  - intros name sigma [X|[X|[X|[] ] ] ]; injection X as <- <-; repeat split; auto; discriminate.
  - pose proof growth_half as G. unfold growth_rate in G. unfold get_cosmo_blind. cbn [draw_params]. change (get_from_cosmo case_fid "w0_fld" (Some 1)) with (Ok (-1) : result R). cbn [bind]. rewrite G. cbn [bind]. change (get_from_cosmo case_fid "fnl" (Some 1)) with (Ok 0 : result R). cbn [bind]. cbn. eexists. reflexivity.
  - reflexivity.
  - cbn [app]. apply Forall_forall. intros s [<-|[<-|[<-|[] ] ] ]; apply case_exact; cbn; repeat split; lra.
Qed.
Example C87_undo_case : forall s, In s [(10, 20, 1); (200, 5, 2)] -> on_sky s /\ 0 < c_distance (with_slope 3075) (snd s) /\ inverse_at (line_inverse (c_distance (with_slope 3075))) (c_distance (with_slope 3075)) (snd s) /\
  exists y, 0 < y /\ line_inverse (c_distance case_fid) (c_distance (with_slope 3075) (snd s)) = Ok y.
Proof.
  assert (G : forall s, on_sky s -> on_sky s /\ 0 < c_distance (with_slope 3075) (snd s) /\ inverse_at (line_inverse (c_distance (with_slope 3075))) (c_distance (with_slope 3075)) (snd s) /\ exists y, 0 < y /\ line_inverse (c_distance case_fid) (c_distance (with_slope 3075) (snd s)) = Ok y).
  { intros [[ra dec] r] O. destruct O as (O1 & O2 & O3). split; [repeat split; tauto|]. cbn [snd c_distance with_slope]. split; [lra|]. unfold inverse_at, case_fid. change (line_inverse (fun z : R => 3075 * z)) with (line_inverse (c_distance (with_slope 3075))). change (line_inverse (fun z : R => 3000 * z)) with (line_inverse (c_distance (with_slope 3000))). rewrite !slope_inverse by lra.
    split; [f_equal; field|]. exists (3075 * r / 3000). split; auto. lra. }
  intros s [<-|[<-|[] ] ]; apply G; cbn; repeat split; lra.
Qed.
(** Zero uncertainties do change the catalogs when a density parameter is among the names, as by default: with the redshift that the growth rate needs, the one of that redshift is taken for the one of today. *)
Theorem C87_zero_refuted : exists cp clone rc d2z a fid u params bias z l l' rest, means cp a fid /\ clone_same clone fid /\ sound rc /\ NoDup (map fst params) /\ (forall name sigma, In (name, sigma) params -> sigma = 0) /\ incl (map fst params) (map fst default_params) /\
  get_from_cosmo fid "fnl" (Some z) = Ok 0 /\ Forall (fun s => on_sky s /\ 0 < c_distance fid (snd s) /\ inverse_at (d2z (c_distance fid)) (c_distance fid) (snd s)) l /\
  procedure cp clone rc d2z a u (Some params) (Some z) bias z "rdz" None (as_sky F8 l) None (as_sky F8 []) None = Ok (as_sky F8 l', None, rest) /\ l' <> l.
Proof.
  set (params := [("Omega_m", 0); ("f", 0); ("fnl", 0)]%string). assert (B : exists blind, get_cosmo_blind case_clone case_fid (fun _ => 3 / 4) (Some params) (Some 1) = Ok blind /\ (forall z, c_distance blind z = 3300 * z) /\ growth_rate blind None (1 / 2 / 1) /\ get_from_cosmo blind "fnl" None = Ok 0).
  { pose proof growth_half as G. unfold growth_rate in G. unfold get_cosmo_blind, params. cbn [draw_params]. change (get_from_cosmo case_fid "Omega_m" (Some 1)) with (Ok (3 / 10 + 1 / 10) : result R). cbn [bind]. rewrite G. cbn [bind]. change (get_from_cosmo case_fid "fnl" (Some 1)) with (Ok 0 : result R). cbn [bind].
    cbn. eexists. split; [reflexivity|]. split; [intros z; cbn; lra|]. unfold growth_rate, get_from_cosmo. cbn. split; f_equal; lra. }
  destruct B as (blind & B & DB & GB & FB).
  destruct (C87_effect case_cp case_clone case_rc line_inverse (CName "DESI") case_fid (fun _ => 3 / 4) (Some params) (Some 1) blind (14 / 10) 1 None F8 [(10, 20, 1)] [] None None (1 / 2 / 1) (1 / 2 / 1) 0 (fun s => 300 * snd s) snd case_means B eq_refl case_sound growth_half) as (l' & m' & w & E & EA & _); auto.
  - lra.
  - cbn. auto.
  - apply case_sight.
  - apply case_inverse.
  - repeat constructor; rewrite ?DB; cbn; try lra; unfold case_fid; try (eexists; apply slope_inverse; lra). change (line_inverse (fun z : R => 3000 * z)) with (line_inverse (c_distance (with_slope 3000))). rewrite slope_inverse by lra. f_equal. field.
  - destruct C87_nothing_case as (CS & _). exists case_cp, case_clone, case_rc, line_inverse, (CName "DESI"), case_fid, (fun _ => 3 / 4), params, (14 / 10), 1, [(10, 20, 1)], l'. eexists. split; [apply case_means|]. split; auto. split; [apply case_sound|].
    split; [repeat constructor; cbn; intuition discriminate|]. split; [intros name sigma [X|[X|[X|[] ] ] ]; injection X as <- <-; auto|]. split; [intros n; cbn; tauto|]. split; [reflexivity|]. split.
    + constructor; [|constructor]. apply case_exact; cbn; repeat split; lra.
    + split; [exact E|]. intros ->. unfold each in EA. inversion EA as [|? ? ? ? (_ & y & Y1 & Y2) _]; subst. rewrite DB in Y2. cbn in Y1, Y2. lra.
Qed.
Print Assumptions C87_zero_refuted.
