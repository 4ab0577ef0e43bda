(** projects/mcc_trx/mcc.py: the initial state and the reference curves of the plot. *)
From Coq Require Import List ZArith Bool.
From Verif Require Import Num Linalg Arrays ModelGrid ModelShape ModelMath ModelState ModelLaws.
Import ListNotations.

Section Trx.
Context {T : Type} `{NumT T}.
Local Open Scope num_scope.

(** mcc.py 34; modifiedcamclay.py 161-194 for the defaults *)
Definition trx_law (nu M lam kap N pref : T) : MCC T :=
  {| mc_nu := nu; mc_M := M; mc_lam := lam; mc_kap := kap; mc_N := N; mc_pref := pref; mc_Kmin := None; mc_Kmax := None;
     mc_pmin := nofZ 10; mc_rho_p := nofZ 2650; mc_reset := true |}.
(** mcc.py 37-41 and 61-63; the scalar ocr is made a stack (modifiedcamclay.py 216-217) *)
Definition trx_start (m : MCC T) (confine ocr : T) : res (SoftBody T * LawState T) :=
  rbind (mcc_create_from_ocr m [confine] (repeat ocr 1) None) (fun x =>
  rbind (mp_create {| ca_dim := D3; ca_pos := None; ca_vel := None; ca_force := None; ca_mass := None; ca_vol := None; ca_vol0 := None; ca_L := None;
                      ca_stress := Some (snd (fst x)); ca_F := None; ca_storeF := false; ca_kw := [KW_density (snd x)] |}) (fun b =>
  Ok (b, fst (fst x)))).
(** the curves of the lower left plot (117-140) as the pairs (abscissa in kPa, ordinate) matplotlib joins on logarithmic axes *)
Definition plot_ncl (m : MCC T) : list (T * T) :=
  combine [n1; nofZ 100] (map (fun p => get_v_ncl p (mc_pref m) (mc_N m) (mc_lam m)) [nofZ 1000; nofZ 100000]).
Definition plot_csl (m : MCC T) : list (T * T) :=
  combine [n1; nofZ 100] (map (fun p => get_v_csl p (mc_pref m) (mc_N m) (mc_lam m) (mc_kap m)) [nofZ 1000; nofZ 100000]).
Definition plot_sl (m : MCC T) (pc : T) : list (T * T) :=
  combine [n1; nofZ 10] (map (fun p => get_v_sl (nofZ 10000) p (mc_pref m) (mc_N m) (mc_lam m) (mc_kap m)) [nofZ 10; pc]).
(** 22-28, 34: the numbers of the script *)
Definition trx_numbers : res (SoftBody T * LawState T) :=
  trx_start (trx_law (lit 3 10) (lit 9 10) (lit 2 10) (lit 5 100) n2 (nofZ 1000)) (nofZ 10000) n1.
End Trx.
