(** Concrete solver states used to show that hypotheses are satisfiable and as witnesses of refutations. *)
From Coq Require Import List Arith ZArith Reals Bool Lra Lia.
From Flocq Require Import Core.Raux.
From Verif Require Import Num NumR Linalg Arrays ModelGrid ModelShape ModelMath ModelState ModelLaws ModelForces ModelSolver
  Sums ShapeFacts SpecShape ShapeProofs ShapeProofs2 ShapeProofs3 P_Shape MappingProofs ResFacts SolverFacts SpecSolver
  TransferProofs TransferProofs2 StepProofs GatherProofs MomentumProofs AffineProofs StepAffine.
Import ListNotations.
Local Open Scope R_scope.

Definition pt (x v : vec3 R) (stress F : mat3 R) : Particle R :=
  {| pt_pos := x; pt_vel := v; pt_mass := 1; pt_force := vzero; pt_vol := 1; pt_vol0 := 1; pt_L := mzero;
     pt_stress := stress; pt_F := F; pt_Fst := meye |}.
Definition bodyR (l : list (Particle R)) : Body R := Soft {| sb_dim := D2; sb_pts := l; sb_storeF := false; sb_vol0d := false |}.
Definition cpl (p : nat) : Coupling := {| c_kernel := Quadratic; c_p := p; c_g := 0; c_c := Some p; c_s := Some p; c_skip := false |}.
Definition lawR : Law R := LawLE (linear_elastic 1 (1/4) false).
(** [n] bodies of material points, body i coupled to law i and solver state i *)
Definition solverR (sch : Scheme R) (alpha : R) (n : nat) : Solver R :=
  {| so_scheme := sch; so_alpha := alpha; so_domains := [g2]; so_couplings := map cpl (seq 0 n);
     so_laws := repeat (Some lawR) n; so_forces := []; so_sdfs := []; so_sharp := 1 |}.
Definition aflipR : AFLIP R := {| af_dynamic := false; af_support_min := 11/10; af_support_max := 15/10; af_beta_min := 0; af_beta_max := 1;
  af_mls := true; af_cutoff := 1 / 10 ^ 12; af_cfl := 1 |}.
Definition lstate (b : Body R) : option (LawState R) := Some (LS_LE (map pt_stress (body_pts b))).
Definition stateR (bs : list (Body R)) (Bp : mat3 R) (dt : R) : SimState R :=
  {| s_world := {| w_mps := bs; w_sdfs := [] |};
     s_mech := {| m_laws := map lstate bs; m_solvers := map (fun b => Some (SS_AFLIP (repeat Bp (length (body_pts b))))) bs; m_forces := [] |};
     s_time := 0; s_step := 0; s_dt := dt |}.
Definition xa : vec3 R := V3 (13/4) (11/4) 0.
Definition xb : vec3 R := V3 (15/4) (13/4) 0.
Definition two (va vb : vec3 R) (stress : mat3 R) : Body R := bodyR [pt xa va stress meye; pt xb vb stress meye].

Lemma xa_interior k : interior k g2 xa.
Proof. destruct k; unfold interior, interior1; simpl; repeat split; lra. Qed.
Lemma xb_interior k : interior k g2 xb.
Proof. destruct k; unfold interior, interior1; simpl; repeat split; lra. Qed.


(** *** weights of the two example points *)
Lemma quad_pos d : In d [5/4; 1/4; -3/4; 3/4; -1/4; -5/4] -> 1/32 <= quad_basis d.
Proof.
  intros H. unfold quad_basis; rnum. simpl in H.
  destruct H as [<-|[<-|[<-|[<-|[<-|[<-|[]]]]]]]; repeat (rcase; cbn [andb]); lra.
Qed.
Lemma floor_imp z x : IZR z <= x < IZR z + 1 -> Zfloor x = z.
Proof. intros H. apply Zfloor_imp. rewrite plus_IZR. exact H. Qed.
Lemma ex_rows it : In it (compute_on Quadratic g2 [xa; xb]) -> 1/1024 <= it_val it.
Proof.
  intros H. destruct (compute_row Quadratic g2 [xa; xb] it H) as (off & Ho & _ & Hp & _ & E).
  assert (I : interior Quadratic g2 (nth (it_point it) [xa; xb] vzero)).
  { simpl in Hp. destruct (it_point it) as [|[|n]]; [apply xa_interior|apply xb_interior|lia]. }
  rewrite E. unfold single_interaction. cbn [it_val].
  pose proof (interior_valid Quadratic g2 _ off (proj1 g2_wf) I Ho) as V. apply idx_valid_iff in V. unfold bpos in V. rewrite V.
  cbn [gd_dim g2 shape_val]. simpl basis.
  assert (X : forall d e, In d [5/4; 1/4; -3/4; 3/4; -1/4; -5/4] -> In e [5/4; 1/4; -3/4; 3/4; -1/4; -5/4] -> 1/1024 <= quad_basis d * quad_basis e).
  { intros d e Hd He. apply quad_pos in Hd. apply quad_pos in He. nra. }
  simpl in Hp. destruct (it_point it) as [|[|n]]; [| |lia]; clear -X Ho; apply X;
    unfold dist_vec, node_idx, base_pos, base_id; cbn [vx vy vz gd_dim g2 gd_origin gd_inv nth xa xb]; rnum.
  1: rewrite (floor_imp 2) by lra. 2: rewrite (floor_imp 2) by lra. 3: rewrite (floor_imp 3) by lra. 4: rewrite (floor_imp 2) by lra.
  all: simpl in Ho; repeat (destruct Ho as [<-|Ho]; [simpl; rewrite ?Rmult_1_r|]); try contradiction.
  all: lra.
Qed.

(** *** the examples meet the standing hypotheses *)
Lemma ex_act sch al n gi : active_on (solverR sch al n) gi = if Nat.eqb gi 0 then map cpl (seq 0 n) else [].
Proof.
  unfold active_on, solverR; cbn [so_couplings]. generalize 0%nat at 1 3. induction n as [|n IH]; intro s; simpl; [destruct (Nat.eqb gi 0); reflexivity|].
  rewrite IH. destruct gi; reflexivity.
Qed.
Lemma ex_nodup sch al n : NoDup (map c_p (active (solverR sch al n))).
Proof.
  assert (H : map c_p (active (solverR sch al n)) = seq 0 n).
  { unfold active, solverR; cbn [so_couplings]. generalize 0%nat. induction n as [|n IH]; intro s; simpl; [reflexivity|]. rewrite IH. reflexivity. }
  rewrite H. apply seq_NoDup.
Qed.
Definition is_two (b : Body R) : Prop := exists va vb s, b = two va vb s.
Lemma ex_inside sch al n bs B dt : Forall is_two bs -> inside (solverR sch al n) (s_world (stateR bs B dt)).
Proof.
  intros H c gd Hc Egd. simpl in Hc. apply in_map_iff in Hc. destruct Hc as (p & <- & _). simpl in Egd. injection Egd as <-.
  split; [apply g2_wf|]. intros q Hq. unfold pts_at in Hq. simpl in Hq. destruct (nth_error bs p) as [b|] eqn:Eb; [|contradiction].
  apply nth_error_In in Eb. rewrite Forall_forall in H. destruct (H b Eb) as (va & vb & s & ->). simpl in Hq.
  destruct Hq as [<-|[<-|[]]]; [apply xa_interior|apply xb_interior].
Qed.
Lemma ex_kernel sch al n p : (p < n)%nat -> last_kernel (so_couplings (solverR sch al n)) p 0 = Some Quadratic.
Proof.
  intros Hp. destruct (last_kernel (so_couplings (solverR sch al n)) p 0) as [k|] eqn:E.
  - destruct (last_kernel_in _ _ _ _ E) as (c & Hc & _ & _ & <-). simpl in Hc. apply in_map_iff in Hc. destruct Hc as (q & <- & _). reflexivity.
  - exfalso. revert E. unfold last_kernel. simpl.
    assert (G : forall l o, In p l -> fold_left (fun o c => if Nat.eqb (c_p c) p && Nat.eqb (c_g c) 0 then Some (c_kernel c) else o) (map cpl l) o <> None).
    { induction l as [|q l IH]; intros o Hq; [contradiction|]. simpl. destruct (Nat.eqb_spec q p) as [->|N]; simpl.
      - assert (X : forall l, fold_left (fun o c => if Nat.eqb (c_p c) p && Nat.eqb (c_g c) 0 then Some (c_kernel c) else o) (map cpl l) (Some Quadratic) <> None).
        { clear. induction l as [|q l IH]; simpl; [discriminate|]. destruct (Nat.eqb q p); exact IH. }
        apply X.
      - apply IH. destruct Hq; [contradiction|assumption]. }
    apply G. apply in_seq. lia.
Qed.
Lemma ex_heavy sch al bs B dt w ca w2 ca2 ca3 g c : Forall is_two bs -> 
  let S := solverR sch al (length bs) in let st := stateR bs B dt in cut_of S < 1 / 1024 ->
  prepare S st = Ok (w, ca) -> p2g S w (s_mech st) ca = Ok (w2, ca2) -> integrate_grid S w2 (s_mech st) (s_dt st) ca2 = Ok ca3 ->
  nth_error (sc_grids ca3) 0 = Some g -> In c (active_on S 0) -> heavy S (s_world st) g c.
Proof.
  intros Ht S st Hcut E1 E2 E3 Eg Hc.
  assert (P : forall c p, In c (active_on S 0) -> In p (pts_at (s_world st) (c_p c)) -> pt_mass p = 1).
  { clear -Ht. intros c p _ Hp. unfold pts_at in Hp. simpl in Hp. destruct (nth_error bs (c_p c)) as [b|] eqn:Eb; [|contradiction].
    apply nth_error_In in Eb. rewrite Forall_forall in Ht. destruct (Ht b Eb) as (va & vb & s & ->). destruct Hp as [<-|[<-|[]]]; reflexivity. }
  eapply (heavy_if S st); try eassumption; [apply ex_inside, Ht|reflexivity| |].
  - intros c' p Hc' Hp. rewrite (P c' p Hc' Hp). lra.
  - intros it Hit _. unfold S in Hc. rewrite ex_act in Hc. simpl in Hc. apply in_map_iff in Hc. destruct Hc as (p & <- & Hp). apply in_seq in Hp.
    unfold rows_of, S in Hit. cbn [cpl c_p c_g] in *. rewrite ex_kernel in Hit by lia. cbn [nth_error so_domains solverR] in Hit.
    unfold pts_at in *. unfold st, stateR in *. cbn [s_world w_mps] in *. destruct (nth_error bs p) as [b|] eqn:Eb; [|apply nth_error_None in Eb; lia].
    apply nth_error_In in Eb. rewrite Forall_forall in Ht. destruct (Ht b Eb) as (va & vb & s & ->). cbn [body_pts two bodyR sb_pts map pt pt_pos] in *.
    destruct (compute_in_range _ _ _ _ (proj1 g2_wf) Hit) as (_ & Lp & _). apply ex_rows in Hit. simpl in Lp.
    replace (pt_mass _) with 1; [lra|]. destruct (it_point it) as [|[|n]]; [reflexivity|reflexivity|lia].
Qed.
Lemma ex_cut sch al n : sch = USL \/ sch = ASFLIP aflipR -> 0 <= cut_of (solverR sch al n) < 1 / 1024.
Proof.
  intros [-> | ->]; unfold cut_of; cbn [so_scheme solverR aflipR af_cutoff]; unfold cut12; rnum.
  all: replace (10 ^ 12)%Z with 1000000000000%Z by reflexivity; try (replace (10 ^ 12) with 1000000000000 by ring); lra.
Qed.
(** the phases of a successful step *)
Lemma ex_phases (S : Solver R) st st' : solver_step S st = Ok st' -> exists w ca w2 ca2 ca3,
  prepare S st = Ok (w, ca) /\ p2g S w (s_mech st) ca = Ok (w2, ca2) /\ integrate_grid S w2 (s_mech st) (s_dt st) ca2 = Ok ca3.
Proof.
  intros E. apply step_ok in E. destruct E as (w & ca & w2 & ca2 & ca3 & w3 & m3 & w4 & m4 & E1 & E2 & E3 & _).
  exists w, ca, w2, ca2, ca3. auto.
Qed.
