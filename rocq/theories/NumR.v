(** Reasoning support for the real instance. *)
From Coq Require Import ZArith Reals Bool Lra Lia.
From Flocq Require Import Core.Raux.
From Verif Require Import Num.
Local Open Scope R_scope.

Lemma Rltb_true x y : Rltb x y = true <-> x < y.
Proof. unfold Rltb; destruct (Rlt_dec x y); split; intros; try discriminate; auto; contradiction. Qed.
Lemma Rltb_false x y : Rltb x y = false <-> y <= x.
Proof. unfold Rltb; destruct (Rlt_dec x y); split; intros; try discriminate; auto; lra. Qed.
Lemma Rleb_true x y : Rleb x y = true <-> x <= y.
Proof. unfold Rleb; destruct (Rle_dec x y); split; intros; try discriminate; auto; contradiction. Qed.
Lemma Rleb_false x y : Rleb x y = false <-> y < x.
Proof. unfold Rleb; destruct (Rle_dec x y); split; intros; try discriminate; auto; lra. Qed.
Lemma Reqb_true x y : Reqb x y = true <-> x = y.
Proof. unfold Reqb; destruct (Req_EM_T x y); split; intros; try discriminate; auto; contradiction. Qed.
Lemma Reqb_false x y : Reqb x y = false <-> x <> y.
Proof. unfold Reqb; destruct (Req_EM_T x y); split; intros; try discriminate; auto; contradiction. Qed.

(** Turn generic operations at [R] into the usual ones. *)
Ltac rnum :=
  cbv [nofZ nadd nsub nmul ndiv nopp nltb nleb neqb nfloor ntrunc numt_num
       nsqrt nexp nln npow ncos nsin ncbrt npi
       n0 n1 n2 n3 lit sq Num_R NumT_R] in *.

(** Case analysis on one real comparison in the goal or hypotheses. *)
Ltac rcase :=
  match goal with
  | |- context [Rltb ?x ?y] =>
      let E := fresh "E" in destruct (Rltb x y) eqn:E; [apply Rltb_true in E|apply Rltb_false in E]
  | |- context [Rleb ?x ?y] =>
      let E := fresh "E" in destruct (Rleb x y) eqn:E; [apply Rleb_true in E|apply Rleb_false in E]
  | |- context [Reqb ?x ?y] =>
      let E := fresh "E" in destruct (Reqb x y) eqn:E; [apply Reqb_true in E|apply Reqb_false in E]
  | H : context [Rltb ?x ?y] |- _ =>
      let E := fresh "E" in destruct (Rltb x y) eqn:E; [apply Rltb_true in E|apply Rltb_false in E]
  | H : context [Rleb ?x ?y] |- _ =>
      let E := fresh "E" in destruct (Rleb x y) eqn:E; [apply Rleb_true in E|apply Rleb_false in E]
  | H : context [Reqb ?x ?y] |- _ =>
      let E := fresh "E" in destruct (Reqb x y) eqn:E; [apply Reqb_true in E|apply Reqb_false in E]
  end.

Lemma nabs_R x : nabs x = Rabs x.
Proof.
  unfold nabs; rnum. rcase; [rewrite Rabs_left|rewrite Rabs_right]; lra.
Qed.
Lemma nmax_R x y : nmax x y = Rmax x y.
Proof. unfold nmax; rnum. rcase; unfold Rmax; destruct (Rle_dec x y); lra. Qed.
Lemma nmin_R x y : nmin x y = Rmin x y.
Proof. unfold nmin; rnum. rcase; unfold Rmin; destruct (Rle_dec x y); lra. Qed.
Lemma nsign_R_pos x : 0 < x -> nsign x = 1.
Proof. intros; unfold nsign; rnum. repeat rcase; lra. Qed.
Lemma nsign_R_neg x : x < 0 -> nsign x = -1.
Proof. intros; unfold nsign; rnum. repeat rcase; lra. Qed.
Lemma nsign_R_0 : @nsign R _ 0 = 0.
Proof. unfold nsign; rnum. repeat rcase; lra. Qed.
