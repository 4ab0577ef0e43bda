(** projects/unified_elasto_plastic_inertial_mcc/UEPI_MCC.py: Cam-Clay with an inertial correction.
    The file's own get_K, get_G, get_v_ncl, get_v_csl differ from those of modifiedcamclay.py and get the prefix [ue_] here. *)
From Coq Require Import List ZArith Bool.
From Verif Require Import Num Linalg Arrays ModelGrid ModelShape ModelMath ModelState ModelLaws.
Import ListNotations.

Section UEPI.
Context {T : Type} `{NumT T}.
Local Open Scope num_scope.

(** UEPI_MCC.py 15-18 *)
Definition ue_K (kap p : T) : T := p / kap.
(** UEPI_MCC.py 21-24 *)
Definition ue_G (nu K : T) : T := (n3 * (n1 - n2 * nu) / (n2 * (n1 + nu))) * K.
(** UEPI_MCC.py 27-29 *)
Definition get_xi (ps p : T) : T := ps / p.
(** UEPI_MCC.py 32-38 *)
Definition get_M_xi (xi : T) : T := nsqrt (n2 * xi - n1).
Definition get_M_xi_2 (xi : T) : T := n2 * xi - n1.
(** UEPI_MCC.py 41-43 *)
Definition get_mcc_M (xi M : T) : T := M * get_M_xi xi.
(** UEPI_MCC.py 46-53 *)
Definition ue_v_ncl (pc pref N lam : T) : T := N * npow (pref / pc) lam.
Definition ue_v_csl (ps pref gamma lam : T) : T := gamma * npow (pref / ps) lam.
(** UEPI_MCC.py 56-65 *)
Definition get_v_xi (xi kap : T) : T := npow xi kap.
Definition get_mcc_sl (xi ps pref gamma lam kap : T) : T := ue_v_csl ps pref gamma lam * get_v_xi xi kap.
(** UEPI_MCC.py 68-70 *)
Definition convert_gamma_N (gamma lam kap : T) : T := gamma * npow n2 (- (kap - lam)).
(** UEPI_MCC.py 73-80 *)
Definition get_deps_v_p (p xi pm : T) : T := pm * (n2 * (p - p * xi) / sq (p * xi)).
Definition get_deps_s_p (p xi q M pm : T) : T := pm * (n2 * q / sq (M * p * xi)).
(** UEPI_MCC.py 88-91 *)
Definition get_plastic_inertial_number (p rate d rho : T) : T :=
  rate * d * nsqrt (rho / nmax p (lit 1 (10 ^ 12))).
(** UEPI_MCC.py 94-96 *)
Definition solid_volume_fraction_to_specific_volume (v : T) : T := n1 / v.
(** UEPI_MCC.py 99-105 *)
Definition get_M_I (I IM M Minf : T) : T := n1 + I * ((Minf / M - n1) / (IM + I)).
Definition get_M_I_2 (I IM M Minf : T) : T := sq (n1 + I * ((Minf / M - n1) / (IM + I))).
(** UEPI_MCC.py 108-110 *)
Definition get_iss_M (I IM M Minf : T) : T := M * get_M_I I IM M Minf.
(** UEPI_MCC.py 113-123 *)
Definition get_v_I (I Iv : T) : T := nexp (I / Iv).
Definition get_iss_v (vcsl I Iv : T) : T := vcsl * get_v_I I Iv.
(** UEPI_MCC.py 131-139 *)
Definition get_unified_M (xi I M Minf IM : T) : T := M * get_M_xi xi * get_M_I I IM M Minf.
Definition get_unified_M_2 (xi I M Minf IM : T) : T := sq M * get_M_xi_2 xi * get_M_I_2 I IM M Minf.
(** UEPI_MCC.py 143-144 *)
Definition get_unified_iys (p q M Mxi2 MI2 : T) : T := sq (q / (p * M + lit 1 (10 ^ 12))) - Mxi2 * MI2.
(** UEPI_MCC.py 147-151 *)
Definition get_unified_isl (xi p pref gamma lam kap : T) : T := ue_v_csl (xi * p) pref gamma lam * get_v_xi xi kap.
(** UEPI_MCC.py 154-156 *)
Definition get_deps_v_p_hardening (ps psprev dI Iv lam kap : T) : T :=
  (lam - kap) * nln (nmax (ps / psprev) (lit 1 (10 ^ 12))) - dI / Iv.
(** UEPI_MCC.py 159-160 *)
Definition get_ps_I (ps I Iv : T) : T := ps * nexp (I / Iv).
(** UEPI_MCC.py 163-167 *)
Definition get_unified_iys_res (p ps q M MI : T) : T :=
  let Miss := M * MI in
  let pc := ps * n2 in
  (q * q) / (Miss * Miss) + p * p - pc * p.

(** UEPI_MCC.py 177-230: the law; requires_F_reset keeps its default False (extra keywords are dropped) *)
Record UEPI := { ue_pref : T; ue_nu : T; ue_lam : T; ue_kap : T; ue_M : T; ue_gamma : T;
                 ue_Minf : T; ue_Iv : T; ue_IM : T; ue_rho : T; ue_d : T }.
(** UEPI_MCC.py 194-226: __init__; without gamma and N the product None * float raises *)
Definition uepi_create (nu M lam kap d Iv IM : T) (Minf gamma N : option T) (pref rho : T) : res UEPI :=
  rbind (match gamma, N with
         | Some g, _ => Ok g
         | None, Some n => Ok (n * npow n2 (kap - lam))
         | None, None => Err TypeError
         end) (fun g =>
  Ok {| ue_pref := pref; ue_nu := nu; ue_lam := lam; ue_kap := kap; ue_M := M; ue_gamma := g;
        ue_Minf := match Minf with Some x => x | None => M * (n1 + lit 1 (10 ^ 12)) end;
        ue_Iv := Iv; ue_IM := IM; ue_rho := rho; ue_d := d |}).
(** UEPI_MCC.py 228-230 *)
Definition uepi_N (m : UEPI) : T := ue_gamma m * npow n2 (- (ue_kap m - ue_lam m)).
(** UEPI_MCC.py 170-174: one entry of the state *)
Record UEState := { us_ps : T; us_ref : mat3 T; us_I : T; us_eps : mat3 T }.
(** the inertial number of a point at rest, 1e-22 *)
Definition I_rest : T := lit 1 (10 ^ 22).

(** UEPI_MCC.py 232-278, one entry: state, stress and density.  The argument q_stack is overwritten with zeros. *)
Definition uepi_from_ocr1 (m : UEPI) (p ocr : T) (q : option T) : UEState * mat3 T * T :=
  let pc := p * ocr in
  let ps := pc / n2 in
  let v := get_mcc_sl (get_xi ps p) ps (ue_pref m) (ue_gamma m) (ue_lam m) (ue_kap m) in
  let sg := reconstruct_stress_from_triaxial p n0 in
  ({| us_ps := ps; us_ref := sg; us_I := I_rest; us_eps := mzero |}, sg, ue_rho m / v).

(** UEPI_MCC.py 320-366: rotated previous state and elastic predictor; the specific volume is an unused argument *)
Record UETrial := { ut_pprev : T; ut_dev : T; ut_p : T; ut_K : T; ut_G : T; ut_s : mat3 T; ut_q : T; ut_eps : mat3 T; ut_deps : mat3 T; ut_yf : T }.
Definition ue_trial (m : UEPI) (L : mat3 T) (stress : mat3 T) (st : UEState) (dt : T) : UETrial :=
  let D := get_sym_tensor L in
  let W := get_spin_tensor L in
  let deps := mscale dt D in
  let sp := get_jaumann_increment stress W dt in
  let ep := get_jaumann_increment (us_eps st) W dt in
  let pprev := get_pressure sp in
  let sprev := get_dev_stress sp (Some pprev) in
  let dv := get_volumetric_strain deps in
  let p := pprev * nexp (dv / ue_kap m) in
  let K := ue_K (ue_kap m) (lit 1 2 * (pprev + p)) in
  let G := ue_G (ue_nu m) K in
  let s := madd (mscale (n2 * G) (get_dev_strain deps (Some dv))) sprev in
  let q := q_vm_dev s in
  {| ut_pprev := pprev; ut_dev := dv; ut_p := p; ut_K := K; ut_G := G; ut_s := s; ut_q := q; ut_eps := ep; ut_deps := deps;
     ut_yf := get_unified_iys_res p (us_ps st) q (ue_M m) n1 |}.
(** UEPI_MCC.py 372-376: elastic_update *)
Definition ue_elastic (t : UETrial) (st : UEState) : mat3 T * UEState :=
  (madd (ut_s t) (mscale (ut_p t) meye),
   {| us_ps := us_ps st; us_ref := us_ref st; us_I := I_rest; us_eps := madd (ut_eps t) (ut_deps t) |}).

(** UEPI_MCC.py 378-426: the quantities of [residuals] at (pmulti, log p_s) *)
Definition ue_u0 (st : UEState) : T := nln (nmax (us_ps st) n1).
Definition ue_factor (t : UETrial) (x : T * T) : T := n1 / (n1 + nofZ 6 * ut_G t * fst x).
Definition ue_q (t : UETrial) (x : T * T) : T := nmax (ut_q t) (lit 1 (10 ^ 6)) * ue_factor t x.
Definition ue_I (m : UEPI) (t : UETrial) (dt : T) (x : T * T) : T :=
  get_plastic_inertial_number (nmax (nexp (snd x)) (ue_pref m)) (n2 * fst x * ue_q t x / dt) (ue_d m) (ue_rho m).
Definition ue_dpv (m : UEPI) (t : UETrial) (st : UEState) (dt : T) (x : T * T) : T :=
  (ue_lam m - ue_kap m) * (snd x - ue_u0 st) - (ue_I m t dt x - us_I st) / ue_Iv m.
Definition ue_p (m : UEPI) (t : UETrial) (st : UEState) (dt : T) (x : T * T) : T :=
  nmax (ut_pprev t) n1 * nexp ((ut_dev t - ue_dpv m t st dt x) / ue_kap m).
Definition ue_residual (m : UEPI) (t : UETrial) (st : UEState) (dt : T) (x : T * T) : T * T :=
  let p := ue_p m t st dt x in
  let ps := nexp (snd x) in
  let MI := get_M_I (ue_I m t dt x) (ue_IM m) (ue_M m) (ue_Minf m) in
  (get_unified_iys_res p ps (ue_q t x) (ue_M m) MI,
   (fst x * (n2 * (p - ps)) * sq (ue_M m) - ue_dpv m t st dt x) * nofZ (10 ^ 4)).
(** UEPI_MCC.py 428-447: one step.  The Jacobian jax.jacfwd computes is the argument [jac]: nothing is assumed of it. *)
Definition nclip (lo hi x : T) : T := nmin (nmax x lo) hi.
Definition ue_newton (jac : T * T -> mat2 T) (res : T * T -> T * T) (x : T * T) : T * T :=
  let d := m2v (inv_2x2_robust (jac x) (nofZ (10 ^ 6))) (res x) in
  let d1 := nclip (- lit 1 10) (lit 1 10) (- snd d) in
  let y := (fst x + lit 4 10 * - fst d, snd x + lit 4 10 * d1) in
  let z := if (not_finite (fst y) || not_finite (snd y))%bool then x else y in
  (nmax (fst z) n0, snd z).
(** UEPI_MCC.py 449-471: pull_to_ys *)
Definition ue_solution (m : UEPI) (jac : T * T -> mat2 T) (t : UETrial) (st : UEState) (dt : T) : T * T :=
  iter 20 (ue_newton jac (ue_residual m t st dt)) (n0, ue_u0 st).
Definition ue_plastic (m : UEPI) (jac : T * T -> mat2 T) (t : UETrial) (st : UEState) (dt : T) : mat3 T * UEState :=
  let x := ue_solution m jac t st dt in
  let p0 := get_pressure (us_ref st) in
  let s0 := get_dev_stress (us_ref st) (Some p0) in
  let s := mscale (ue_factor t x) (ut_s t) in
  let p := ue_p m t st dt x in
  let ev := (p - p0) / ut_K t in
  let ed := mmap (fun y => y / (n2 * ut_G t)) (msub s s0) in
  (madd s (mscale p meye),
   {| us_ps := nexp (snd x); us_ref := us_ref st; us_I := ue_I m t dt x; us_eps := madd ed (mscale (lit 1 3 * ev) meye) |}).
(** UEPI_MCC.py 309-476: _update_stress.  [jac] may depend on all arguments of the call. *)
Definition ue_stress (m : UEPI) (jac : UETrial -> UEState -> T -> T * T -> mat2 T) (L stress : mat3 T) (st : UEState) (dt : T) : mat3 T * UEState :=
  let t := ue_trial m L stress st dt in
  if n0 <? ut_yf t then ue_plastic m (jac t st dt) t st dt else ue_elastic t st.
(** UEPI_MCC.py 280-307: update of a body; stacks of different lengths make vmap raise *)
Definition uepi_update (m : UEPI) (jac : UETrial -> UEState -> T -> T * T -> mat2 T) (b : SoftBody T) (ls : list UEState) (dt : T)
  : res (SoftBody T * list UEState) :=
  if Nat.eqb (length ls) (length (sb_pts b)) then
    let rs := map (fun ps => ue_stress m jac (pt_L (fst ps)) (pt_stress (fst ps)) (snd ps) dt) (combine (sb_pts b) ls) in
    Ok (set_pts b (map (fun pr => set_stress (fst pr) (fst (snd pr))) (combine (sb_pts b) rs)), map snd rs)
  else Err ValueError.

(** sip_setup.py 38-40: the reference volume on the critical state line that the figures use *)
Definition sip_gamma (N lam kap : T) : T := N * npow n2 (- (lam - kap)).
(** result_trx.py 232-247: the inertial number reported for a point, from the strain rate and the pressure in kPa times 1000 *)
Definition trx_I (m : UEPI) (a : Particle T) : res T :=
  rbind (get_shear_strain_vm (Some (get_sym_tensor (pt_L a))) None) (fun rate =>
  Ok (rate * ue_d m / nsqrt (get_pressure (pt_stress a) / nofZ 1000 * nofZ 1000 / ue_rho m))).
End UEPI.
Arguments UEPI : clear implicits.
Arguments UEState : clear implicits.
Arguments UETrial : clear implicits.
