(** Property theorems C142: snapshots stored in half precision. *)
From Coq Require Import List ZArith Reals Bool String Lra Lia.
From Flocq Require Import Core Relative.
From Verif Require Import Num NumR NumFl ModelGrid ModelShape ModelState ModelSave ResFacts.
Import ListNotations.
Local Open Scope R_scope.

Lemma half_exp : Valid_exp (FLT_exp (-24) 11).
Proof. apply FLT_exp_valid. reflexivity. Qed.
Global Existing Instance half_exp.
Lemma half_format (n : Z) (k : Z) : (Z.abs n < 2 ^ 11)%Z -> (-24 <= k)%Z -> generic_format radix2 (FLT_exp (-24) 11) (IZR n * bpow radix2 k).
Proof.
  intros A B. apply generic_format_FLT. exists (Float radix2 n k); [reflexivity|exact A|exact B].
Qed.
(** 65520 is half way between 65504, the largest half, and 65536 *)
Lemma fl_65520 : fl 11 (-24) 65520 = 65536.
Proof.
  unfold fl. unfold round, scaled_mantissa, cexp. rewrite (mag_unique radix2 65520 16).
  2:{ rewrite Rabs_pos_eq by lra. cbn. lra. }
  unfold FLT_exp. replace (Z.max (16 - 11) (-24)) with 5%Z by reflexivity.
  replace (65520 * bpow radix2 (- (5))) with (IZR 2047 + / 2) by (cbn; lra).
  assert (E : ZnearestE (IZR 2047 + / 2) = 2048%Z).
  { unfold ZnearestE, Znearest. rewrite (Zfloor_imp 2047) by (simpl; lra). rewrite Rcompare_Eq by lra.
    assert (Zceil (IZR 2047 + / 2) = 2048%Z) as -> by (apply Zceil_imp; simpl; lra). reflexivity. }
  rewrite E. unfold F2R. cbn. lra.
Qed.
Lemma fl_65504 : fl 11 (-24) 65504 = 65504.
Proof.
  unfold fl. apply round_generic; [apply valid_rnd_N|]. replace 65504 with (IZR 2047 * bpow radix2 5) by (cbn; lra).
  apply half_format; [reflexivity|lia].
Qed.
Lemma fl_mono (x y : R) : x <= y -> fl 11 (-24) x <= fl 11 (-24) y.
Proof. apply round_le; [exact half_exp|apply valid_rnd_N]. Qed.
Lemma fl_opp (x : R) : fl 11 (-24) (- x) = - fl 11 (-24) x.
Proof. apply round_NE_opp. Qed.
Lemma fl_abs (x : R) : Rabs (fl 11 (-24) x) = fl 11 (-24) (Rabs x).
Proof.
  unfold Rabs at 2. destruct (Rcase_abs x) as [H|H].
  - rewrite fl_opp. pose proof (fl_mono x 0 ltac:(lra)) as M. unfold fl in M at 2. rewrite round_0 in M by apply valid_rnd_N. apply Rabs_left1, M.
  - pose proof (fl_mono 0 x ltac:(lra)) as M. unfold fl in M at 1. rewrite round_0 in M by apply valid_rnd_N. apply Rabs_pos_eq, M.
Qed.
(** below 65520 the result is at most 65504 *)
Lemma gap (y : R) : generic_format radix2 (FLT_exp (-24) 11) y -> y < 65536 -> y <= 65504.
Proof.
  intros F H. destruct (Rle_or_lt y 65504) as [L|L]; [exact L|exfalso].
  assert (P : pred radix2 (FLT_exp (-24) 11) 65536 = 65504).
  { replace 65536 with (bpow radix2 16) by (cbn; lra). rewrite pred_bpow. unfold FLT_exp. replace (Z.max (16 - 11) (-24)) with 5%Z by reflexivity.
    cbn. lra. }
  assert (F2 : generic_format radix2 (FLT_exp (-24) 11) 65536).
  { replace 65536 with (IZR 1 * bpow radix2 16) by (cbn; lra). apply half_format; [reflexivity|lia]. }
  pose proof (pred_ge_gt radix2 (FLT_exp (-24) 11) y 65536 F F2 H) as Q. rewrite P in Q. lra.
Qed.
Lemma half_fin (x : R) : Rabs x < 65520 -> half x = HFin (fl 11 (-24) x) /\ Rabs (fl 11 (-24) x) <= 65504.
Proof.
  intros H. assert (B : Rabs (fl 11 (-24) x) <= 65504).
  { apply gap. { rewrite fl_abs. apply generic_format_round; [exact half_exp|apply valid_rnd_N]. }
    rewrite fl_abs. assert (M := fl_mono (Rabs x) 65520 ltac:(lra)). rewrite fl_65520 in M. destruct M as [M|M]; [exact M|exfalso].
    (* x rounds to 65536 only from 65520 on *)
    assert (N : Rnd_N_pt (generic_format radix2 (FLT_exp (-24) 11)) (Rabs x) (fl 11 (-24) (Rabs x))).
    { unfold fl. apply round_N_pt. exact half_exp. }
    rewrite M in N. destruct N as (_ & N). specialize (N 65504). rewrite (Rabs_pos_eq (65536 - Rabs x)) in N by lra.
    assert (F : generic_format radix2 (FLT_exp (-24) 11) 65504).
    { replace 65504 with (IZR 2047 * bpow radix2 5) by (cbn; lra). apply half_format; [reflexivity|lia]. }
    specialize (N F). destruct (Rle_or_lt (Rabs x) 65504) as [L|L].
    - pose proof (fl_mono _ _ L) as K. rewrite fl_65504 in K. lra.
    - rewrite (Rabs_left1 (65504 - Rabs x)) in N by lra. lra. }
  split; [|exact B]. unfold half. destruct (Rle_dec 65536 (Rabs (fl 11 (-24) x))); [lra|reflexivity].
Qed.
Lemma half_inf (x : R) : 65520 <= Rabs x -> half x = HInf (if Rle_dec x 0 then true else false).
Proof.
  intros H. unfold half. destruct (Rle_dec 65536 (Rabs (fl 11 (-24) x))) as [L|L]; [reflexivity|exfalso; apply L].
  rewrite fl_abs, <- fl_65520. apply fl_mono, H.
Qed.
Lemma fl_close (p e : Z) (x : R) : (1 < p)%Z -> Rabs (fl p e x - x) <= Rabs x * bpow radix2 (- p) + bpow radix2 (e - 1).
Proof.
  intros Hp. unfold fl. destruct (error_N_FLT radix2 e p ltac:(lia) (fun z => negb (Z.even z)) x) as (eps & eta & A & B & _ & ->).
  replace (x * (1 + eps) + eta - x) with (x * eps + eta) by ring. eapply Rle_trans; [apply Rabs_triang|]. rewrite Rabs_mult.
  replace (/ 2 * bpow radix2 (- p + 1)) with (bpow radix2 (- p)) in A by (rewrite bpow_plus; cbn; field).
  replace (/ 2 * bpow radix2 e) with (bpow radix2 (e - 1)) in B by (unfold Zminus; rewrite bpow_plus; cbn; field).
  apply Rplus_le_compat; [apply Rmult_le_compat_l; [apply Rabs_pos|exact A]|exact B].
Qed.

(** *** one number *)
(** Below 65520 a number is stored to one part in 2048, or 2^-25; from 65520 on it is stored as infinity, up to 2^-25 as zero. *)
Theorem C142_number : forall x : R,
  (Rabs x < 65520 -> exists h, half x = HFin h /\ Rabs (h - x) <= Rabs x / 2048 + / 2 ^ 25) /\
  (65520 <= Rabs x -> half x = HInf (if Rle_dec x 0 then true else false)) /\
  (Rabs x <= / 2 ^ 25 -> half x = HFin 0).
Proof.
  intros x. split; [|split; [apply half_inf|]].
  - intros H. exists (fl 11 (-24) x). split; [apply half_fin, H|]. eapply Rle_trans; [apply fl_close; lia|]. right. f_equal; cbn; lra.
  - intros H. assert (L : / 2 ^ 25 < 65520) by lra. destruct (half_fin x ltac:(lra)) as (-> & _). f_equal.
    assert (Z : fl 11 (-24) (/ 2 ^ 25) = 0).
    { unfold fl, round, scaled_mantissa, cexp. rewrite (mag_unique radix2 (/ 2 ^ 25) (-24)).
      2:{ rewrite Rabs_pos_eq by lra. cbn. lra. }
      unfold FLT_exp. replace (Z.max (-24 - 11) (-24)) with (-24)%Z by reflexivity.
      replace (/ 2 ^ 25 * bpow radix2 (- (-24))) with (IZR 0 + / 2) by (cbn; lra).
      assert (E : ZnearestE (IZR 0 + / 2) = 0%Z).
      { unfold ZnearestE, Znearest. rewrite (Zfloor_imp 0) by (simpl; lra). rewrite Rcompare_Eq by lra. reflexivity. }
      rewrite E. unfold F2R. cbn. lra. }
    assert (A : Rabs (fl 11 (-24) x) <= 0) by (rewrite fl_abs, <- Z; apply fl_mono, H).
    pose proof (Rabs_pos (fl 11 (-24) x)). apply Rabs_eq_R0. lra.
Qed.
Definition half_le (a b : Half) : Prop :=
  match a, b with
  | HInf true, _ | _, HInf false => True
  | HFin x, HFin y => x <= y
  | _, _ => False
  end.
(** Order is kept and storing a stored number changes nothing. *)
Theorem C142_order : forall x y : R, x <= y -> half_le (half x) (half y).
Proof.
  intros x y H. unfold half.
  destruct (Rle_dec 65536 (Rabs (fl 11 (-24) x))) as [A|A]; destruct (Rle_dec 65536 (Rabs (fl 11 (-24) y))) as [B|B]; pose proof (fl_mono x y H) as M.
  - destruct (Rle_dec x 0); [exact I|]. destruct (Rle_dec y 0); [lra|exact I].
  - destruct (Rle_dec x 0) as [X|X]; [exact I|]. exfalso. rewrite fl_abs, Rabs_pos_eq in A by lra. rewrite fl_abs, Rabs_pos_eq in B by lra. lra.
  - destruct (Rle_dec y 0) as [Y|Y]; [|exact I]. exfalso. rewrite fl_abs, Rabs_left1, fl_opp in B by lra. rewrite fl_abs, Rabs_left1, fl_opp in A by lra. lra.
  - exact M.
Qed.
Theorem C142_again : forall x h : R, half x = HFin h -> half h = HFin h.
Proof.
  intros x h. unfold half at 1. destruct (Rle_dec 65536 (Rabs (fl 11 (-24) x))) as [A|A]; [discriminate|]. intros E. injection E as <-.
  assert (G : fl 11 (-24) (fl 11 (-24) x) = fl 11 (-24) x).
  { unfold fl at 1. apply round_generic; [apply valid_rnd_N|]. apply generic_format_round; [exact half_exp|apply valid_rnd_N]. }
  unfold half. rewrite G. destruct (Rle_dec 65536 (Rabs (fl 11 (-24) x))); [contradiction|reflexivity].
Qed.

(** *** a whole state *)
Lemma stress_number (p e : Z) (x : R) : (24 <= p)%Z -> (e <= -149)%Z -> Rabs x <= 65500000 ->
  exists h, half (fl p e (x / 1000)) = HFin h /\ Rabs (1000 * h - x) <= Rabs x / 2000 + 1 / 30000.
Proof.
  intros Hp He Hx. set (y := fl p e (x / 1000)). pose proof (fl_close p e (x / 1000) ltac:(lia)) as C. fold y in C.
  assert (A : Rabs (x / 1000) = Rabs x / 1000) by (unfold Rdiv; rewrite Rabs_mult, (Rabs_pos_eq (/ 1000)); lra). rewrite A in C.
  assert (B1 : bpow radix2 (- p) <= / 2 ^ 24) by (replace (/ 2 ^ 24) with (bpow radix2 (-24)) by (cbn; lra); apply bpow_le; lia).
  assert (B2 : bpow radix2 (e - 1) <= / 2 ^ 40).
  { replace (/ 2 ^ 40) with (bpow radix2 (-40)) by (cbn; lra). apply bpow_le. lia. }
  pose proof (Rabs_pos x) as X0.
  assert (C2 : Rabs (y - x / 1000) <= Rabs x / 1000 * / 2 ^ 24 + / 2 ^ 40).
  { eapply Rle_trans; [exact C|]. apply Rplus_le_compat; [apply Rmult_le_compat_l; lra|exact B2]. }
  assert (Y : Rabs y <= Rabs x / 1000 + (Rabs x / 1000 * / 2 ^ 24 + / 2 ^ 40)).
  { replace y with (x / 1000 + (y - x / 1000)) by ring. eapply Rle_trans; [apply Rabs_triang|]. rewrite A. lra. }
  destruct (proj1 (C142_number y) ltac:(lra)) as (h & E & D). exists h. split; [exact E|].
  replace (1000 * h - x) with (1000 * (h - y) + 1000 * (y - x / 1000)) by field.
  eapply Rle_trans; [apply Rabs_triang|]. rewrite !Rabs_mult, (Rabs_pos_eq 1000) by lra. lra.
Qed.
(** how close a stored entry is to the entry of the state *)
Definition is_stress_leaf (l : Leaf) : Prop := lf_path l = [Field "stress_stack"].
Definition entry_ok (l : Leaf) (x : R) (s : Entry) : Prop :=
  if lf_float l then
    (is_stress_leaf l -> Rabs x <= 65500000 -> exists h, s = EHalf (HFin h) /\ Rabs (1000 * h - x) <= Rabs x / 2000 + 1 / 30000) /\
    (~ is_stress_leaf l -> Rabs x < 65520 -> exists h, s = EHalf (HFin h) /\ Rabs (h - x) <= Rabs x / 2048 + / 2 ^ 25)
  else ~ is_stress_leaf l -> s = ESame x.
Lemma is_stress_spec l : is_stress (lf_path l) = true <-> is_stress_leaf l.
Proof.
  unfold is_stress, is_stress_leaf. destruct (lf_path l) as [|[n|i] [|k r]]; split; intros H; try discriminate.
  - apply String.eqb_eq in H. subst. reflexivity.
  - injection H as ->. apply String.eqb_refl.
Qed.
(** Saving the points of one set: nothing is left out, shapes are kept, and every entry is as close as half precision allows; stress is in kPa. *)
Theorem C142_points : forall (p e : Z) i s ls, (24 <= p)%Z -> (e <= -149)%Z -> nth_error (sn_points s) i = Some ls ->
  exists out, save_compressed_sim p e true true i s = Ok out /\
  Forall2 (fun l o => st_path o = lf_path l /\ st_shape o = lf_shape l /\ Forall2 (entry_ok l) (lf_data l) (st_data o)) ls out.
Proof.
  intros p e i s ls Hp He E. unfold save_compressed_sim. unfold idx. rewrite E. cbn [oget rbind]. eexists. split; [reflexivity|].
  rewrite map_map. clear E. induction ls as [|l ls IH]; [constructor|]. cbn [map]. constructor; [|exact IH]. clear IH.
  assert (St := is_stress_spec l). unfold to_kpa. destruct (is_stress (lf_path l)) eqn:K.
  - cbn [leaf_to_zarr st_path st_shape st_data lf_path lf_shape lf_float lf_data]. split; [reflexivity|]. split; [reflexivity|].
    rewrite map_map. unfold entry_ok. assert (IS : is_stress_leaf l) by (apply St; reflexivity).
    induction (lf_data l) as [|x xs IH]; [constructor|]. cbn [map]. constructor; [|exact IH]. destruct (lf_float l); cbn [andb].
    + split; [intros _ Hx; destruct (stress_number p e x Hp He Hx) as (h & -> & D); exists h; auto|contradiction].
    + contradiction.
  - cbn [leaf_to_zarr st_path st_shape st_data]. split; [reflexivity|]. split; [reflexivity|].
    unfold entry_ok. induction (lf_data l) as [|x xs IH]; [constructor|]. cbn [map]. constructor; [|exact IH]. destruct (lf_float l); cbn [andb].
    + split; [intros Q; apply St in Q; discriminate|]. intros _ Hx. destruct (proj1 (C142_number x) Hx) as (h & -> & D). exists h. auto.
    + reflexivity.
Qed.
(** Saving the whole state: the stress is not scaled, so every stress from 65.52 kPa on is stored as infinity. *)
Theorem C142_whole_refuted : forall (p e : Z) i s ls l x j k, nth_error (sn_points s) k = Some ls -> In l ls -> is_stress_leaf l -> lf_float l = true ->
  nth_error (lf_data l) j = Some x -> 65520 <= x ->
  exists out o, save_compressed_sim p e true false i s = Ok out /\ In o out /\
    st_path o = [Field "world"; Field "material_points"; Index k; Field "stress_stack"] /\ nth_error (st_data o) j = Some (EHalf (HInf false)).
Proof.
  intros p e i s ls l x j k Ek Hl St Fl Ej Hx. unfold save_compressed_sim. eexists. exists (leaf_to_zarr true (in_world k l)).
  split; [reflexivity|]. split; [|split].
  - apply in_map. unfold all_leaves. apply in_or_app. left. apply in_concat. exists (map (in_world k) ls). split; [|apply in_map, Hl].
    apply in_map_iff. exists (k, ls). split; [reflexivity|]. clear -Ek.
    assert (G : forall (l : list (list Leaf)) (n k : nat), nth_error l k = Some ls -> In ((n + k)%nat, ls) (combine (seq n (List.length l)) l)).
    { clear. induction l as [|a l IH]; intros n [|k] E; try discriminate; cbn [List.length seq combine].
      - injection E as ->. left. f_equal. lia.
      - right. replace (n + S k)%nat with (S n + k)%nat by lia. apply IH, E. }
    apply (G _ 0%nat), Ek.
  - cbn. rewrite St. reflexivity.
  - cbn. rewrite Fl. cbn [andb]. rewrite nth_error_map, Ej. cbn [option_map]. do 2 f_equal. rewrite half_inf by (rewrite Rabs_pos_eq; lra).
    destruct (Rle_dec x 0); [lra|reflexivity].
Qed.
(** Volumes are stored in cubic metres: eight points in a cell of 5 mm or less are stored with no volume at all. *)
Theorem C142_volume_refuted : forall (h : R) (ppc : R), 0 < h <= 5 / 1000 -> 8 <= ppc -> 0 < h * h * h / ppc /\ half (h * h * h / ppc) = HFin 0.
Proof.
  intros h k [H1 H2] Hk. assert (P : 0 < h * h * h) by (repeat apply Rmult_lt_0_compat; lra).
  assert (B : h * h * h <= 5/1000 * (5/1000) * (5/1000)).
  { apply Rmult_le_compat; try lra; [apply Rmult_le_pos; lra|apply Rmult_le_compat; lra]. }
  assert (D : 0 < h * h * h / k) by (apply Rdiv_lt_0_compat; lra). split; [exact D|]. apply (proj2 (proj2 (C142_number _))).
  rewrite Rabs_pos_eq by lra. apply Rmult_le_reg_r with k; [lra|]. unfold Rdiv. rewrite Rmult_assoc, Rinv_l by lra. lra.
Qed.
(** number of entries of a shape *)
Definition entries (l : list nat) : nat := fold_right Nat.mul 1%nat l.
(** Chunks: as many axes as the array; for three axes or more a chunk is one index of the first two and everything of the others. *)
Theorem C142_chunks : forall shape, List.length (chunks shape) = List.length shape /\
  (Forall (fun n => (1 <= n)%nat) shape -> Forall2 (fun c n => (1 <= c <= n)%nat) (chunks shape) shape) /\
  (forall a b r, shape = a :: b :: r -> r <> [] -> (entries (chunks shape) * (a * b) = entries shape)%nat) /\
  ((List.length shape < 3)%nat -> chunks shape = shape).
Proof.
  intros shape. destruct shape as [|a [|b [|c r]]]; cbn [chunks List.length]; (split; [reflexivity|]); (split; [|split; [|intros; try reflexivity; lia]]).
  - constructor.
  - intros; discriminate.
  - intros F. inversion F; subst. constructor; [lia|constructor].
  - intros; discriminate.
  - intros F. inversion F as [|? ? A F']; subst. inversion F'; subst. repeat constructor; lia.
  - intros x y r E N. injection E as <- <- <-. destruct (N eq_refl).
  - intros F. inversion F as [|? ? A F']; subst. inversion F' as [|? ? B F'']; subst. constructor; [lia|]. constructor; [lia|].
    clear -F''. induction F''; constructor; [lia|assumption].
  - intros x y q E _. injection E as <- <- <-. unfold entries. cbn [fold_right]. ring.
Qed.
(** a snapshot of two points: 70 kPa of stress and a point of a 5 mm cell *)
Definition snapshot : Snapshots :=
  {| sn_points := [[ {| lf_path := [Field "stress_stack"]; lf_shape := [1; 1; 2]%nat; lf_float := true; lf_data := [70000; 2] |};
                     {| lf_path := [Field "volume_stack"]; lf_shape := [1; 1; 2]%nat; lf_float := true; lf_data := [/ 64000000; 1] |} ]]; sn_rest := [] |}.
Example C142_case : (exists out, save_compressed_sim 24 (-149) true true 0 snapshot = Ok out /\ List.length out = 2%nat) /\
  nth_error (sn_points snapshot) 0 <> None /\ is_stress_leaf (nth 0 (nth 0 (sn_points snapshot) []) {| lf_path := []; lf_shape := []; lf_float := false; lf_data := [] |}) /\
  Rabs (70000 / 1000) < 65520 /\ 65520 <= 70000 /\ 8 <= 8.
Proof. split; [eexists; split; reflexivity|]. split; [discriminate|]. split; [reflexivity|]. rewrite Rabs_pos_eq by lra. lra. Qed.
Print Assumptions C142_number.
Print Assumptions C142_order.
Print Assumptions C142_again.
Print Assumptions C142_points.
Print Assumptions C142_whole_refuted.
Print Assumptions C142_volume_refuted.
Print Assumptions C142_chunks.
