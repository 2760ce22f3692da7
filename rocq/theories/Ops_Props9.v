(** The operation point selection of the externally excited synchronous motor: motoring and
    braking are mirror images.  Property C183.  Source: gem_controllers/stages/
    operation_point_selection/eesm_ops.py, 234-264. *)
From Coq Require Import ZArith Lra Lia.
From Verif Require Import PyBaseFacts PyDictFacts Transform_Model Transform_Proofs Motor_Model Conv_Model Wrap_Model Ctl_Model Ctl_Model2 Ctl_Spec Ctl_Proofs Ctl_Proofs2 Ctl_Props Emf_Props Ops_Model Ops_Proofs Ops_Props Ops_Props2 Ops_Props3 Ops_Props4 Ops_Model2 Ops_Proofs2 Ops_Props6 Ops_Props7.
Local Open Scope string_scope.
Local Open Scope list_scope.
Local Open Scope R_scope.

Lemma clip_odd x T : 0 <= T -> np_clip (- x) (- T) T = - np_clip x (- T) T.
Proof. intros H. unfold np_clip, Rmin, Rmax. destruct (Rle_dec (- x) (- T)), (Rle_dec x (- T)); repeat match goal with |- context [Rle_dec ?a ?b] => destruct (Rle_dec a b) end; lra. Qed.
Lemma sign_odd x : np_sign (- x) = - np_sign x.
Proof. unfold np_sign. destruct (rltP (- x) 0), (rltP 0 (- x)), (rltP x 0), (rltP 0 x); lra. Qed.
(** the output with the torque producing current turned round *)
Definition turned (out : list nan) : list nan := match out with [d; q; e] => [d; nan_scale (-1) q; e] | _ => out end.
(** A reference and its opposite lead to the same direct and excitation current, to opposite
    torque producing currents, to the same exceptions and to the same controller state. *)
Theorem eesm_reversal :
  forall o m x r rest, 0 <= ee_tmax o -> fst (eesm_select o m x (- r :: rest)) = fst (eesm_select o m x (r :: rest)) /\
  snd (eesm_select o m x (- r :: rest)) = match snd (eesm_select o m x (r :: rest)) with Ok out => Ok (turned out) | Err er => Err er end.
Proof.
  intros o m x r rest HT. unfold eesm_select. destruct (modulation (ee_f o) m x) as [m1 pm]. cbn [fst snd]. split; [reflexivity|]. destruct pm as [pmx|er]; cbn [bind]; [|reflexivity]. cbn [item nth_error bind]. assert (L : ee_limit o (- r) pmx = ee_limit o r pmx) by (unfold ee_limit; rewrite (clip_odd r _ HT), Rabs_Ropp; reflexivity). rewrite L. destruct (ee_limit o r pmx) as [y|er]; cbn [bind]; [|reflexivity].
  destruct (ee_t_idx o (fst y)) as [ti|er]; cbn [bind]; [|reflexivity]. destruct (ee_psi_idx o (snd y)) as [pi|er]; cbn [bind]; [|reflexivity]. destruct (tab_at (ee_d o) ti pi) as [d|er]; cbn [bind]; [|reflexivity]. destruct (tab_at (ee_q o) ti pi) as [q|er]; cbn [bind]; [|reflexivity]. destruct (tab_at (ee_e o) ti pi) as [ee|er]; cbn [bind]; [|reflexivity].
  cbn [turned]. rewrite sign_odd. destruct q as [q|]; cbn [nan_scale]; [|reflexivity]. replace (- np_sign r * q) with (-1 * (np_sign r * q)) by ring. reflexivity.
Qed.
Print Assumptions eesm_reversal.
(** Over whole histories: driving with the opposite references gives the mirrored outputs. *)
Fixpoint eesm_runs (o : eesm_ops) (m : fmod) (h : list (list R * R)) : list (res (list nan)) :=
  match h with [] => [] | (x, r) :: rest => let (m', out) := eesm_select o m x [r] in out :: eesm_runs o m' rest end.
Theorem eesm_reversed_history :
  forall o h m, 0 <= ee_tmax o -> eesm_runs o m (map (fun p => (fst p, - snd p)) h) = map (fun out => match out with Ok y => Ok (turned y) | Err er => Err er end) (eesm_runs o m h).
Proof.
  intros o h. induction h as [|[x r] h IH]; intros m HT; [reflexivity|]. cbn [map fst snd eesm_runs]. destruct (eesm_reversal o m x r [] HT) as [A B]. destruct (eesm_select o m x [- r]) as [m1 o1]. destruct (eesm_select o m x [r]) as [m2 o2]. cbn [fst snd] in A, B. subst m1 o1. cbn [map]. rewrite (IH m2 HT). reflexivity.
Qed.
Print Assumptions eesm_reversed_history.
(** A tuned stage meets the hypothesis, and answers. *)
Example eesm_reversal_example : exists o m0 m' d q ee, eesm_tune true first_tri one_root flat_cubic 1 (12 / 10) None eesm_ctl_env [] (2 / 10) = Ok (o, m0) /\ 0 <= ee_tmax o /\
  eesm_select o (foc_reset (ee_f o) m0) (repeat 1 13) [-50] = (m', Ok [Some d; Some (- q); Some ee]) /\ eesm_select o (foc_reset (ee_f o) m0) (repeat 1 13) [50] = (m', Ok [Some d; Some q; Some ee]).
Proof.
  destruct eesm_select_example as (o & m0 & m' & d & q & ee & T & HT & _ & _ & S). exists o, m0, m', d, q, ee. split; [exact T|]. split; [lra|]. split; [|exact S]. destruct (eesm_reversal o (foc_reset (ee_f o) m0) (repeat 1 13) 50 [] ltac:(lra)) as [A B]. rewrite S in A, B. cbn [fst snd turned nan_scale] in A, B. replace (-50) with (- (50)) by lra. destruct (eesm_select o (foc_reset (ee_f o) m0) (repeat 1 13) [- (50)]) as [m2 o2]. cbn [fst snd] in A, B. subst m2 o2. replace (-1 * q) with (- q) by ring. reflexivity.
Qed.
