(** constitutive_laws/*.py *)
From Coq Require Import List ZArith Bool.
From Verif Require Import Num Linalg Arrays ModelGrid ModelShape ModelMath ModelState.
Import ListNotations.

Section Laws.
Context {T : Type} `{NumT T}.
Local Open Scope num_scope.

Definition set_stress (p : Particle T) (s : mat3 T) : Particle T :=
  {| pt_pos := pt_pos p; pt_vel := pt_vel p; pt_mass := pt_mass p; pt_force := pt_force p;
     pt_vol := pt_vol p; pt_vol0 := pt_vol0 p; pt_L := pt_L p; pt_stress := s; pt_F := pt_F p; pt_Fst := pt_Fst p |}.
Definition set_F (p : Particle T) (F Fst : mat3 T) : Particle T :=
  {| pt_pos := pt_pos p; pt_vel := pt_vel p; pt_mass := pt_mass p; pt_force := pt_force p;
     pt_vol := pt_vol p; pt_vol0 := pt_vol0 p; pt_L := pt_L p; pt_stress := pt_stress p; pt_F := F; pt_Fst := Fst |}.
Definition set_pts (b : SoftBody T) (l : list (Particle T)) : SoftBody T :=
  {| sb_dim := sb_dim b; sb_pts := l; sb_storeF := sb_storeF b; sb_vol0d := sb_vol0d b |}.

(** constitutive_law.py 21-62: remove_accumulated_shear *)
Definition compute_cbar (d : Dim) (F : mat3 T) : mat3 T :=
  let J := mdet F in
  match d with
  | D2 => let s := nsqrt J in mdiag s s n0
  | D3 => mscale (ncbrt J) meye
  end.
Definition remove_accumulated_shear (reset : bool) (b : SoftBody T) : SoftBody T :=
  if reset then
    set_pts b (map (fun p => set_F p (compute_cbar (sb_dim b) (pt_F p))
                               (if sb_storeF b then pt_F p else pt_Fst p)) (sb_pts b))
  else b.

(** linearelastic.py 22-31 *)
Definition get_bulk_modulus (E nu : T) : T := E / (n3 * (n1 - n2 * nu)).
Definition get_shear_modulus (E nu : T) : T := E / (n2 * (n1 + nu)).
Definition get_lame_modulus (E nu : T) : T := E * nu / ((n1 + nu) * (n1 - n2 * nu)).
(** linearelastic.py 47-80 *)
Record LinearElastic := { le_E : T; le_nu : T; le_G : T; le_K : T; le_lam : T; le_reset : bool }.
Definition linear_elastic (E nu : T) (reset : bool) : LinearElastic :=
  {| le_E := E; le_nu := nu; le_G := get_shear_modulus E nu; le_K := get_bulk_modulus E nu;
     le_lam := get_lame_modulus E nu; le_reset := reset |}.
(** linearelastic.py 100-114 *)
Definition le_stress (m : LinearElastic) (L prev : mat3 T) (dt : T) : mat3 T :=
  let deps := mscale dt (mscale (lit 1 2) (madd L (mtrans L))) in
  madd (madd prev (mscale (le_lam m * mtrace deps) meye)) (mscale (n2 * le_G m) deps).
(** linearelastic.py 82-98: create_state; with neither argument the annotated field stress_ref_stack is None, rejected by the type check *)
Definition le_create_state (mp : option (SoftBody T)) (stress_ref : option (list (mat3 T))) (dens : option (list T)) : res (LawState T) :=
  match mp, dens, stress_ref with
  | Some b, _, _ => Ok (LS_LE (map pt_stress (sb_pts b)))
  | None, Some d, _ => Ok (LS_LE (map (fun _ => mzero) d))
  | None, None, Some s => Ok (LS_LE s)
  | None, None, None => Err TypeError
  end.

(** newtonfluid.py 27-53 *)
Record Newton := { nf_K : T; nf_visc : T; nf_beta : T; nf_reset : bool }.
(** newtonfluid.py 57-72, one entry *)
Definition nf_density_ref (m : Newton) (rho p : T) : T := rho / npow (p / nf_K m + n1) (n1 / nf_beta m).
Definition nf_create_from_density (m : Newton) (rho : list T) (p : option (list T)) : res (LawState T) :=
  match p with
  | None => Ok (LS_Rho (map (fun r => nf_density_ref m r n0) rho))
  | Some ps => if Nat.eqb (length ps) (length rho)
               then Ok (LS_Rho (map (fun rp => nf_density_ref m (fst rp) (snd rp)) (combine rho ps)))
               else Err TypeError
  end.
(** newtonfluid.py 74-86: passes the pressure positionally to the first parameter density_stack, which is also given by keyword *)
Definition nf_create_state (m : Newton) (b : SoftBody T) : res (LawState T) := Err TypeError.
(** newtonfluid.py 90-126 *)
Definition nf_pressure (m : Newton) (mass vol rho0 : T) : T :=
  let ratio := nmax (mass / vol / rho0) (lit 1 (10 ^ 6)) in
  nmax (nf_K m * (npow ratio (nf_beta m) - n1)) n0.
Definition dev_rate (L : mat3 T) : mat3 T :=
  let D := mscale (lit 1 2) (madd L (mtrans L)) in
  msub D (mscale (lit 1 3 * mtrace D) meye).
Definition nf_stress (m : Newton) (L : mat3 T) (mass vol rho0 : T) : mat3 T :=
  madd (mscale (- nf_pressure m mass vol rho0) meye) (mscale (n2 * nf_visc m) (dev_rate L)).

(** mu_i_rheology.py 29-99 *)
Record MuI := { mi_mu_s : T; mi_mu_d : T; mi_I0 : T; mi_K : T; mi_rho_p : T; mi_d : T;
                mi_alpha : T; mi_pmin : T; mi_reset : bool }.
(** mu_i_rheology.py 101-119, 121-132 *)
Definition mi_density_ref (m : MuI) (rho p : T) : T := rho / (p / mi_K m + n1).
Definition mi_create_from_density (m : MuI) (rho : list T) (p : option (list T)) : res (LawState T) :=
  match p with
  | None => Ok (LS_Rho (map (fun r => mi_density_ref m r n0) rho))
  | Some ps => if Nat.eqb (length ps) (length rho)
               then Ok (LS_Rho (map (fun rp => mi_density_ref m (fst rp) (snd rp)) (combine rho ps)))
               else Err TypeError
  end.
Definition mi_create_state (m : MuI) (b : SoftBody T) : res (LawState T) :=
  mi_create_from_density m (map (fun p => pt_mass p / pt_vol0 p) (sb_pts b)) (Some (map pt_pressure (sb_pts b))).
(** mu_i_rheology.py 134-190 *)
Definition mi_gamma (dev : mat3 T) : T := nsqrt (n2 * mddot dev dev).
Definition mi_psafe (m : MuI) (ratio : T) : T := nmax (mi_K m * (ratio - n1)) (mi_pmin m).
Definition mi_eta (m : MuI) (p g : T) : T :=
  let eta_s := (mi_mu_s m * p) / nsqrt (sq g + sq (mi_alpha m)) in
  let dmu := mi_mu_d m - mi_mu_s m in
  let pconf := mi_I0 m * nsqrt (p / mi_rho_p m) in
  eta_s + (mi_d m * p * dmu) / (pconf + mi_d m * g).
Definition mi_stress (m : MuI) (L : mat3 T) (mass vol rho0 : T) : mat3 T :=
  let D := mscale (lit 1 2) (madd L (mtrans L)) in
  let dev := msub D (mscale (mtrace D / n3) meye) in
  let g := mi_gamma dev in
  let ratio := mass / vol / rho0 in
  if n1 <? ratio then
    let p := mi_psafe m ratio in
    madd (mscale p meye) (mscale (mi_eta m p g) dev)
  else mzero.

(** druckerprager.py 32-73 *)
Record DruckerPrager := { dp_K : T; dp_G : T; dp_mu1 : T; dp_mu2 : T; dp_c0 : T; dp_mu1h : T; dp_H : T;
                          dp_rho0 : T; dp_reset : bool }.
Definition drucker_prager (K nu mu1 mu2 c0 mu1h Hd rho0 : T) (reset : bool) : DruckerPrager :=
  let E := n3 * K * (n1 - n2 * nu) in
  {| dp_K := K; dp_G := E / (n2 * (n1 + nu)); dp_mu1 := mu1; dp_mu2 := mu2; dp_c0 := c0; dp_mu1h := mu1h;
     dp_H := Hd; dp_rho0 := rho0; dp_reset := reset |}.
(** druckerprager.py 75-86 *)
Definition dp_create_state (stress : list (mat3 T)) : LawState T :=
  LS_DP (map (fun s => {| dp_eps_e := mzero; dp_acc := n0; dp_p0 := get_pressure s |}) stress).
(** druckerprager.py 118-207.  The trial state, then the three branches. *)
Record DPTrial := { tr_eps : mat3 T; tr_p : T; tr_s : mat3 T; tr_sj : T; tr_yf : T }.
Definition dp_trial (m : DruckerPrager) (L eps_prev : mat3 T) (acc p0 dt : T) : DPTrial :=
  let deps := mscale dt (get_sym_tensor L) in
  let rot := get_jaumann_increment eps_prev (get_spin_tensor L) dt in
  let eps := madd rot deps in
  let vol := get_volumetric_strain eps in
  let dev := get_dev_strain eps (Some vol) in
  let p := dp_K m * vol + p0 in
  let s := mscale (n2 * dp_G m) dev in
  let sj := nsqrt (nmax (J2_dev s) (lit 1 (10 ^ 12))) in
  let c := dp_c0 m + dp_H m * acc in
  {| tr_eps := eps; tr_p := p; tr_s := s; tr_sj := sj; tr_yf := sj - dp_mu1 m * p - dp_mu2 m * c |}.
Definition dp_multi (m : DruckerPrager) (yf : T) : T :=
  yf / (dp_G m + dp_K m * dp_mu1 m * dp_mu1h m + dp_H m * dp_mu2 m * dp_mu2 m).
Definition dp_elastic (t : DPTrial) (acc : T) : mat3 T * mat3 T * T :=
  (madd (tr_s t) (mscale (tr_p t) meye), tr_eps t, acc).
Definition dp_cone (m : DruckerPrager) (t : DPTrial) (acc p0 : T) : mat3 T * mat3 T * T :=
  let g := dp_multi m (tr_yf t) in
  let pc := tr_p t - dp_K m * g * dp_mu1h m in
  let s := mscale (n1 - (dp_G m * g) / tr_sj t) (tr_s t) in
  let ev := (pc - p0) / dp_K m in
  (madd s (mscale pc meye),
   madd (mmap (fun x => x / (n2 * dp_G m)) s) (mscale (lit 1 3 * ev) meye),
   acc + dp_mu2 m * g).
Definition dp_apex (m : DruckerPrager) (t : DPTrial) (acc p0 : T) : mat3 T * mat3 T * T :=
  let al := dp_mu2 m / nmax (dp_mu1 m) (lit 1 (10 ^ 8)) in
  let depv := (dp_mu1 m * tr_p t + dp_mu2 m * (dp_c0 m + dp_H m * acc))
              / nmax (dp_K m * dp_mu1 m - dp_H m * dp_mu2 m * al) (lit 1 (10 ^ 12)) in
  let pa := tr_p t - dp_K m * depv in
  let ev := (pa - p0) / dp_K m in
  (mscale pa meye, mscale (lit 1 3 * ev) meye, acc + al * depv).
Definition dp_stress (m : DruckerPrager) (L eps_prev : mat3 T) (acc p0 rho dt : T) : mat3 T * mat3 T * T :=
  let t := dp_trial m L eps_prev acc p0 dt in
  if dp_rho0 m <=? rho then
    if n0 <? tr_yf t then
      if tr_sj t - dp_G m * dp_multi m (tr_yf t) <? n0 then dp_apex m t acc p0 else dp_cone m t acc p0
    else dp_elastic t acc
  else (mzero, mzero, acc).

(** modifiedcamclay.py 48-110 *)
Definition yield_function (p pc q M : T) : T := (q * q) / (M * M) + p * p - pc * p.
Definition get_pressure_mcc (dev kap pprev : T) : T := pprev * nexp (dev / kap).
Definition get_nc_pressure_mcc (dpv cp pcprev : T) : T := pcprev * nexp (dpv / cp).
Definition get_s (ded : mat3 T) (G : T) (sprev : mat3 T) : mat3 T := madd (mscale (n2 * G) ded) sprev.
(** jnp.clip with optional bounds *)
Definition clip_lo (lo : option T) (x : T) : T := match lo with Some l => nmax x l | None => x end.
Definition clip_hi (hi : option T) (x : T) : T := match hi with Some h => nmin x h | None => x end.
Definition get_K (kap p : T) (Kmin Kmax : option T) : T :=
  clip_hi Kmax (clip_lo Kmin ((n1 / kap) * nmax p n1)).
Definition get_G (nu K : T) : T := (n3 * (n1 - n2 * nu) / (n2 * (n1 + nu))) * K.
Definition get_v_ncl (pc pref N lam : T) : T := N * npow (pref / pc) lam.
Definition get_v_csl (p pref N lam kap : T) : T := N * npow n2 (kap - lam) * npow (pref / p) lam.
Definition get_v_f_kappa (pc p kap : T) : T := npow (pc / p) kap.
Definition get_v_sl (pc p pref N lam kap : T) : T := get_v_ncl pc pref N lam * get_v_f_kappa pc p kap.
Definition get_qp_ys (pc p M : T) : T := M * nsqrt (pc / p - n1).

(** modifiedcamclay.py 126-194 *)
Record MCC := { mc_nu : T; mc_M : T; mc_lam : T; mc_kap : T; mc_N : T; mc_pref : T;
                mc_Kmin : option T; mc_Kmax : option T; mc_pmin : T; mc_rho_p : T; mc_reset : bool }.
Definition mc_cp (m : MCC) : T := mc_lam m - mc_kap m.

(** modifiedcamclay.py 198-257, one entry: (p_c, stress_ref, density).  A scalar ocr is broadcast to a stack by the caller of the model. *)
Definition mcc_from_ocr1 (m : MCC) (p ocr : T) (q : option T) : T * mat3 T * T :=
  let pc := p * ocr in
  let v := get_v_sl pc p (mc_pref m) (mc_N m) (mc_lam m) (mc_kap m) in
  let qq := match q with
            | None => n0
            | Some q0 => let qpi := q0 / p in
                         let qpy := get_qp_ys pc p (mc_M m) in
                         (if n0 <? nabs (qpi - qpy) then qpy else qpi) * p
            end in
  (pc, reconstruct_stress_from_triaxial p qq, mc_rho_p m / v).
Definition mcc_create_from_ocr (m : MCC) (p ocr : list T) (q : option (list T)) : res (LawState T * list (mat3 T) * list T) :=
  if (Nat.eqb (length ocr) (length p) && len_ok (length p) q)%bool then
    let e := map (fun i => mcc_from_ocr1 m (nth i p n0) (nth i ocr n0)
                     (match q with Some l => Some (nth i l n0) | None => None end)) (seq 0 (length p)) in
    let st := map (fun x => snd (fst x)) e in
    Ok (LS_MCC (map (fun x => fst (fst x)) e) (Some st) (map (fun _ => mzero) p), st, map snd e)
  else Err TypeError.
(** modifiedcamclay.py 260-288, one entry: p_c; stress_ref_stack stays None *)
Definition mcc_pc_from_stress (m : MCC) (p q : T) : T := p * (sq (q / p / mc_M m) + n1).
Definition mcc_create_from_stress (m : MCC) (p q : list T) : res (LawState T * list T) :=
  if Nat.eqb (length q) (length p) then
    let pc := map (fun x => mcc_pc_from_stress m (fst x) (snd x)) (combine p q) in
    Ok (LS_MCC pc None (map (fun _ => mzero) p),
        map (fun x => mc_rho_p m / get_v_sl (fst x) (snd x) (mc_pref m) (mc_N m) (mc_lam m) (mc_kap m)) (combine pc p))
  else Err TypeError.
(** modifiedcamclay.py 291-330 *)
Definition mcc_pc_from_density (m : MCC) (p rho : T) : T :=
  npow ((mc_N m * npow (mc_pref m) (mc_lam m)) / (mc_rho_p m / rho * npow p (mc_kap m))) (n1 / (mc_lam m - mc_kap m)).
Definition mcc_create_from_density (m : MCC) (p rho : list T) : res (LawState T * list T) :=
  if Nat.eqb (length rho) (length p) then
    Ok (LS_MCC (map (fun x => mcc_pc_from_density m (fst x) (snd x)) (combine p rho)) None (map (fun _ => mzero) p),
        map (fun r => mc_rho_p m / r) rho)
  else Err TypeError.
(** modifiedcamclay.py 332-343: jnp.full((n, 1.0)) has a float in the shape and no fill value *)
Definition mcc_create_state (m : MCC) (b : SoftBody T) : res (LawState T) := Err TypeError.

(** modifiedcamclay.py 454-488: residuals and the quantities derived from (pmulti, u_p_c) *)
Record MCCArgs := { ar_dev : T; ar_pprev : T; ar_u0 : T; ar_qtr : T; ar_Ktr : T }.
Definition mcc_p (m : MCC) (a : MCCArgs) (u : T) : T :=
  get_pressure_mcc (ar_dev a - mc_cp m * (u - ar_u0 a)) (mc_kap m) (ar_pprev a).
Definition mcc_K (m : MCC) (p : T) : T := get_K (mc_kap m) p (mc_Kmin m) (mc_Kmax m).
Definition mcc_factor (m : MCC) (a : MCCArgs) (x : T * T) : T :=
  n1 / (n1 + nofZ 6 * get_G (mc_nu m) (mcc_K m (mcc_p m a (snd x))) * fst x).
Definition mcc_residual (m : MCC) (a : MCCArgs) (x : T * T) : T * T :=
  let pm := fst x in let u := snd x in
  let pc := nexp u in
  let dpv := mc_cp m * (u - ar_u0 a) in
  let p := mcc_p m a u in
  let q := ar_qtr a * mcc_factor m a x in
  (yield_function p pc q (mc_M m) / ar_Ktr a, pm * (n2 * p - pc) * sq (mc_M m) - dpv).
(** modifiedcamclay.py 500: jax.jacfwd of the residual, written out.  The slope of jnp.maximum/minimum at a tie is 1/2. *)
Definition dmax (x lo : T) : T := if lo <? x then n1 else if x <? lo then n0 else lit 1 2.
Definition dmin (x hi : T) : T := if x <? hi then n1 else if hi <? x then n0 else lit 1 2.
Definition dclip_lo (lo : option T) (x : T) : T := match lo with Some l => dmax x l | None => n1 end.
Definition dclip_hi (hi : option T) (x : T) : T := match hi with Some h => dmin x h | None => n1 end.
Definition dK (m : MCC) (p : T) : T :=
  let k0 := (n1 / mc_kap m) * nmax p n1 in
  dclip_hi (mc_Kmax m) (clip_lo (mc_Kmin m) k0) * dclip_lo (mc_Kmin m) k0 * ((n1 / mc_kap m) * dmax p n1).
Definition mcc_jacobian (m : MCC) (a : MCCArgs) (x : T * T) : mat2 T :=
  let pm := fst x in let u := snd x in
  let pc := nexp u in
  let p := mcc_p m a u in
  let dp := p * (- mc_cp m / mc_kap m) in
  let G := get_G (mc_nu m) (mcc_K m p) in
  let dG := get_G (mc_nu m) (dK m p * dp) in
  let f := mcc_factor m a x in
  let df_pm := - (nofZ 6 * G) * sq f in
  let df_u := - (nofZ 6 * dG * pm) * sq f in
  let q := ar_qtr a * f in
  let M2' := sq (mc_M m) in
  M2 ((n2 * q * (ar_qtr a * df_pm) / M2') / ar_Ktr a)
     ((n2 * q * (ar_qtr a * df_u) / M2' + n2 * p * dp - pc * p - pc * dp) / ar_Ktr a)
     ((n2 * p - pc) * M2')
     (pm * (n2 * dp - pc) * M2' - mc_cp m).
(** a NaN or infinite component: x - x is not 0 *)
Definition not_finite (x : T) : bool := negb ((x - x) =? n0).
(** modifiedcamclay.py 492-520: one damped Newton step *)
Definition mcc_newton_step (m : MCC) (a : MCCArgs) (x : T * T) : T * T :=
  let d := m2v (inv_2x2_robust (mcc_jacobian m a x) (nofZ (10 ^ 6))) (mcc_residual m a x) in
  let y := (fst x + lit 8 10 * - fst d, snd x + lit 8 10 * - snd d) in
  let z := if (not_finite (fst y) || not_finite (snd y))%bool then x else y in
  (nmax (fst z) n0, nmax (snd z) n0).
Fixpoint iter {A} (n : nat) (f : A -> A) (x : A) : A := match n with O => x | S k => iter k f (f x) end.
(** jnp.where(x, x, d) on a number: truthiness is "not zero" *)
Definition or_else (x d : T) : T := if x =? n0 then d else x.
(** modifiedcamclay.py 375-562 *)
Record MCCTrial := { mt_p : T; mt_s : mat3 T; mt_q : T; mt_K : T; mt_pprev : T; mt_dev : T;
                     mt_eps_rot : mat3 T; mt_deps : mat3 T; mt_yf : T }.
Definition mcc_trial (m : MCC) (L eps_prev stress_prev : mat3 T) (pc_prev dt : T) : MCCTrial :=
  let W := get_spin_tensor L in
  let deps := mscale dt (get_sym_tensor L) in
  let sp := get_jaumann_increment stress_prev W dt in
  let ep := get_jaumann_increment eps_prev W dt in
  let pprev := nmax (get_pressure sp) (mc_pmin m) in
  let dv := get_volumetric_strain deps in
  let p := get_pressure_mcc dv (mc_kap m) pprev in
  let K := mcc_K m (nmax p (mc_pmin m)) in
  let sprev := get_dev_stress sp (Some pprev) in
  let ded := get_dev_strain deps (Some dv) in
  let s := get_s ded (get_G (mc_nu m) K) sprev in
  let q := q_vm_dev s in
  {| mt_p := p; mt_s := s; mt_q := q; mt_K := K; mt_pprev := pprev; mt_dev := dv;
     mt_eps_rot := ep; mt_deps := deps; mt_yf := yield_function p pc_prev q (mc_M m) |}.
Definition mcc_args (t : MCCTrial) (pc_prev : T) : MCCArgs :=
  {| ar_dev := mt_dev t; ar_pprev := mt_pprev t; ar_u0 := nln pc_prev;
     ar_qtr := nmax (mt_q t) (lit 1 (10 ^ 6)); ar_Ktr := mt_K t |}.
Definition mcc_plastic (m : MCC) (t : MCCTrial) (pc_prev : T) (stress_ref : mat3 T) : mat3 T * mat3 T * T :=
  let a := mcc_args t pc_prev in
  let x := iter 10 (mcc_newton_step m a) (n0, ar_u0 a) in
  let p0 := get_pressure stress_ref in
  let s0 := get_dev_stress stress_ref (Some p0) in
  let pn := mcc_p m a (snd x) in
  let Kn := mcc_K m pn in
  let Gn := get_G (mc_nu m) Kn in
  let f := mcc_factor m a x in
  let s := mmap2 or_else (mmap (fun y => y * f) (mt_s t)) (mt_s t) in
  let p := or_else pn (mt_pprev t) in
  let pc := or_else (nexp (snd x)) pc_prev in
  let ev := (p - p0) / Kn in
  let ed := mmap (fun y => y / (n2 * Gn)) (msub s s0) in
  (madd s (mscale p meye), madd ed (mscale (lit 1 3 * ev) meye), pc).
Definition mcc_stress (m : MCC) (L eps_prev stress_prev : mat3 T) (pc_prev : T) (stress_ref : mat3 T) (v dt : T)
  : mat3 T * mat3 T * T :=
  let t := mcc_trial m L eps_prev stress_prev pc_prev dt in
  if v <=? mc_N m * lit 999999 1000000 then
    if n0 <? mt_yf t then mcc_plastic m t pc_prev stress_ref
    else (madd (mt_s t) (mscale (mt_p t) meye), madd (mt_eps_rot t) (mt_deps t), pc_prev)
  else (mscale n0 meye, mt_eps_rot t, pc_prev).

(** The laws of the library *)
Inductive Law := LawLE (m : LinearElastic) | LawNewton (m : Newton) | LawMuI (m : MuI)
  | LawDP (m : DruckerPrager) | LawMCC (m : MCC).
Definition law_reset (l : Law) : bool :=
  match l with LawLE m => le_reset m | LawNewton m => nf_reset m | LawMuI m => mi_reset m
             | LawDP m => dp_reset m | LawMCC m => mc_reset m end.

(** update methods: linearelastic.py 116-128, newtonfluid.py 130-152, mu_i_rheology.py 192-217,
    druckerprager.py 88-116, modifiedcamclay.py 345-372.
    jax.vmap over arrays of different lengths, or over the rank-0 volume of a squeezed single-point body, is a ValueError;
    a state without the attribute (None or the state of another law) an AttributeError. *)
Definition law_update (l : Law) (b : SoftBody T) (st : option (LawState T)) (dt : T)
  : res (SoftBody T * option (LawState T)) :=
  let pts := sb_pts b in
  let n := length pts in
  match l with
  | LawLE m => Ok (set_pts b (map (fun p => set_stress p (le_stress m (pt_L p) (pt_stress p) dt)) pts), st)
  | LawNewton m =>
      match st with
      | Some (LS_Rho r) =>
          if (sb_vol0d b || negb (Nat.eqb (length r) n))%bool then Err ValueError
          else Ok (set_pts b (map (fun pr => set_stress (fst pr)
                     (nf_stress m (pt_L (fst pr)) (pt_mass (fst pr)) (pt_vol (fst pr)) (snd pr))) (combine pts r)), st)
      | _ => Err AttributeError
      end
  | LawMuI m =>
      match st with
      | Some (LS_Rho r) =>
          if (sb_vol0d b || negb (Nat.eqb (length r) n))%bool then Err ValueError
          else Ok (set_pts b (map (fun pr => set_stress (fst pr)
                     (mi_stress m (pt_L (fst pr)) (pt_mass (fst pr)) (pt_vol (fst pr)) (snd pr))) (combine pts r)), st)
      | _ => Err AttributeError
      end
  | LawDP m =>
      match st with
      | Some (LS_DP ds) =>
          if negb (Nat.eqb (length ds) n) then Err ValueError
          else
            let rs := map (fun pd => dp_stress m (pt_L (fst pd)) (dp_eps_e (snd pd)) (dp_acc (snd pd)) (dp_p0 (snd pd))
                                       (density (fst pd)) dt) (combine pts ds) in
            Ok (set_pts b (map (fun pr => set_stress (fst pr) (fst (fst (snd pr)))) (combine pts rs)),
                Some (LS_DP (map (fun dr => {| dp_eps_e := snd (fst (snd dr)); dp_acc := snd (snd dr); dp_p0 := dp_p0 (fst dr) |})
                                 (combine ds rs))))
      | _ => Err AttributeError
      end
  | LawMCC m =>
      match st with
      | Some (LS_MCC pc (Some sref) ee) =>
          if negb (Nat.eqb (length pc) n && Nat.eqb (length sref) n && Nat.eqb (length ee) n) then Err ValueError
          else
            let rs := map (fun i => let p := nth i pts {| pt_pos := vzero; pt_vel := vzero; pt_mass := n0; pt_force := vzero;
                                        pt_vol := n0; pt_vol0 := n0; pt_L := mzero; pt_stress := mzero; pt_F := mzero; pt_Fst := mzero |} in
                       mcc_stress m (pt_L p) (nth i ee mzero) (pt_stress p) (nth i pc n0) (nth i sref mzero)
                         (mc_rho_p m / density p) dt) (seq 0 n) in
            Ok (set_pts b (map (fun pr => set_stress (fst pr) (fst (fst (snd pr)))) (combine pts rs)),
                Some (LS_MCC (map snd rs) (Some sref) (map (fun r => snd (fst r)) rs)))
      | Some (LS_MCC _ None _) => Err TypeError
      | _ => Err AttributeError
      end
  end.

(** get_dt_crit: linearelastic.py 130-152, newtonfluid.py 154-170, mu_i_rheology.py 219-232,
    druckerprager.py 209-218 (reads mp_state.rho_stack, which does not exist); ModifiedCamClay has no such method. *)
Definition list_max (l : list T) : res T :=
  match l with [] => Err ValueError | x :: r => Ok (fold_left nmax r x) end.
Definition dt_from_speeds (cell alpha : T) (sp : list T) : res T :=
  rbind (list_max sp) (fun mx => Ok ((alpha * cell) / (mx + lit 1 (10 ^ 9)))).
Definition rho_of (p : Particle T) : T := pt_mass p / pt_vol p.
Definition get_dt_crit (l : Law) (b : SoftBody T) (cell alpha : T) : res T :=
  match l with
  | LawLE m => dt_from_speeds cell alpha
      (map (fun p => nsqrt ((le_K m + lit 4 3 * le_G m) / rho_of p) + vnorm (pt_vel p)) (sb_pts b))
  | LawNewton m => dt_from_speeds cell alpha
      (map (fun p => nsqrt (nf_K m * nf_beta m / rho_of p) + vnorm (pt_vel p)) (sb_pts b))
  | LawMuI m => dt_from_speeds cell alpha
      (map (fun p => nsqrt (mi_K m / rho_of p) + vnorm (pt_vel p)) (sb_pts b))
  | LawDP _ => Err AttributeError
  | LawMCC _ => Err AttributeError
  end.
End Laws.
Arguments LinearElastic T : clear implicits.
Arguments Newton T : clear implicits.
Arguments MuI T : clear implicits.
Arguments DruckerPrager T : clear implicits.
Arguments MCC T : clear implicits.
Arguments Law T : clear implicits.
