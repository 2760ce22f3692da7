(** Theorems about the shared result array (C144). *)
From Verif Require Import PyBaseFacts Conv_Model Solver_Model Solver_Proofs Motor_Model Motor_Proofs Loads_Model PhysSys_Model PhysSys_Spec PhysSys_Proofs PhysSys_Proofs2 PhysSys_Proofs3
  PhysSys_Props Alias_Model Alias_Spec.
Local Open Scope string_scope. Local Open Scope list_scope. Local Open Scope R_scope.

Lemma cache_after {U} (PP : U -> Prop) m ml mo cache : load_total ml -> motor_total PP m mo -> cache_ok (ml_n ml) (mo_n mo) cache ->
  forall u t y, PP u -> length y = (ml_n ml + mo_n mo)%nat ->
  exists r, system_equation ml mo u t y = Ok r /\ length r = (ml_n ml + mo_n mo)%nat /\
    system_equation_ph ml mo cache u t y = (Some (r, ml_n ml), Ok r).
Proof.
  intros Hl Hm Hc u t y Hu Hy. destruct (placeholder_step PP m ml mo cache Hl Hm Hc u t y Hu Hy) as [H1 H2].
  destruct (system_equation_total PP m ml mo Hl Hm u t y Hu Hy) as (r & Er & Hr). exists r. split; [exact Er|]. split; [exact Hr|]. rewrite Er in H1.
  unfold system_equation_ph in *. destruct cache as [[arr k]|].
  - destruct Hc as [-> Harr].
    destruct (do ms <- select (motor_idx ml mo) y; do ls <- select (load_idx ml) y; do tq <- mo_torque mo ms; do ld <- ml_ode ml t ls tq; if (length ld =? ml_n ml)%nat then Ok (ms, ld) else Err ValueError) as [[ms ld]|e]; [|discriminate].
    match goal with |- context [match ?q with Ok _ => _ | Err _ => _ end] => destruct q eqn:Eq end; [|discriminate]. cbn [snd fst] in *. injection H1 as <-. destruct H2 as [_ H2]. reflexivity.
  - destruct (derivatives ml mo u t y) as [[ld md]|e] eqn:Ed; [|discriminate]. cbn [snd fst] in *. injection H1 as <-. destruct H2 as [H2 _]. now rewrite H2.
Qed.

(** ** C144 A client that reads only the newest result sees what it would see with arrays of
    its own: whatever else it does, the shared array is invisible to it. *)
Theorem newest_only_safe :
  forall U A (PP : U -> Prop) m ml mo (c : client U A), load_total ml -> motor_total PP m mo ->
  newest_only 0 c -> inside PP (ml_n ml + mo_n mo) c ->
  run_shared ml mo None 0 c = run_values (system_equation ml mo) [] c.
Proof.
  intros U A PP m ml mo c Hl Hm.
  assert (K : forall (c : client U A) past cache, newest_only (length past) c -> inside PP (ml_n ml + mo_n mo) c -> cache_ok (ml_n ml) (mo_n mo) cache ->
    (forall r past', past = r :: past' -> length r = (ml_n ml + mo_n mo)%nat /\ cache = Some (r, ml_n ml)) ->
    run_shared ml mo cache (length past) c = run_values (system_equation ml mo) past c).
  { clear c. induction c as [a|e|u t y k IH|i k IH]; intros past cache Hn Hi Hc Hp; cbn [run_shared run_values newest_only inside] in *; try reflexivity.
    - destruct Hi as (Hu & Hy & Hk). destruct (cache_after PP m ml mo cache Hl Hm Hc u t y Hu Hy) as (r & Er & Hr & ->). rewrite Er. cbn [bind].
      apply (IH (r :: past)); [exact Hn|exact Hk| |].
      + cbn. auto.
      + intros r' past' E. injection E as <- <-. auto.
    - destruct Hn as [Hn Hk]. destruct past as [|r past']; [discriminate|]. destruct (Hp r past' eq_refl) as [Hr ->].
      rewrite (proj2 (Nat.ltb_lt i (length (r :: past')))) by lia. cbn [length] in Hn. injection Hn as ->.
      unfold result_at. cbn [rev]. rewrite nth_error_app2 by (rewrite rev_length; lia). rewrite rev_length, Nat.sub_diag. cbn [nth_error bind].
      apply (IH r (r :: past')); [apply Hk|apply Hi, Hr|exact Hc|]. intros r' p' E. injection E as <- <-. auto. }
  intros Hn Hi. apply (K c [] None); auto. cbn. exact I. discriminate.
Qed.
Print Assumptions newest_only_safe.

(** EulerSolver is such a client, and with arrays of its own it is the solver of
    [Solver_Model]: systems with EulerSolver never see the shared array. *)
Theorem euler_ignores_sharing :
  forall U (PP : U -> Prop) m ml mo (s : euler U) p y t, load_total ml -> motor_total PP m mo -> PP p -> length y = (ml_n ml + mo_n mo)%nat ->
  eu_p s = Some p -> eu_y s = Some y ->
  run_shared ml mo None 0 (euler_client (eu_n s) p (eu_t s) t y) = snd (integrate (system_equation ml mo) s t).
Proof.
  intros U PP m ml mo s p y t Hl Hm Hp Hy Ep Ey.
  assert (Hadd : forall y d : list R, length y = (ml_n ml + mo_n mo)%nat -> length d = (ml_n ml + mo_n mo)%nat -> forall h, exists y', np_add y (vscale h d) = Ok y' /\ length y' = (ml_n ml + mo_n mo)%nat).
  { intros y1 d H1 H2 h. unfold np_add, vscale. rewrite map_length, H1, H2, Nat.eqb_refl. eexists. split; [reflexivity|]. rewrite map2_length, map_length. lia. }
  assert (L1 : forall h k n ct y, newest_only n (euler_loop p h n k ct y)).
  { induction k as [|k IH]; intros n ct y1; cbn; [exact I|]. split; [reflexivity|]. intros v. unfold add_client. destruct (np_add y1 (vscale h v)); cbn; [apply IH|exact I]. }
  assert (L2 : forall h k n ct y, length y = (ml_n ml + mo_n mo)%nat -> inside PP (ml_n ml + mo_n mo) (euler_loop p h n k ct y)).
  { induction k as [|k IH]; intros n ct y1 H1; cbn; [exact I|]. split; [exact Hp|]. split; [exact H1|]. intros v Hv. unfold add_client.
    destruct (Hadd y1 v H1 Hv h) as (y' & -> & H'). now apply IH. }
  assert (L3 : forall h k past ct y, run_values (system_equation ml mo) past (euler_loop p h (length past) k ct y) = nsteps_loop (system_equation ml mo p) h k ct y).
  { induction k as [|k IH]; intros past ct y1; cbn; [reflexivity|]. destruct (system_equation ml mo p (ct + h) y1) as [d|e]; cbn [bind]; [|reflexivity].
    unfold result_at. rewrite nth_error_app2 by (rewrite rev_length; lia). rewrite rev_length, Nat.sub_diag. cbn [nth_error bind]. unfold add_client.
    destruct (np_add y1 (vscale h d)) as [y'|e]; cbn [bind]; [|reflexivity]. apply (IH (d :: past)). }
  assert (N : newest_only 0 (euler_client (eu_n s) p (eu_t s) t y)).
  { unfold euler_client. destruct (eu_n s) as [|[|k]]; [exact I| |apply L1]. cbn. split; [reflexivity|]. intros v. unfold add_client. destruct (np_add y _); exact I. }
  assert (I1 : inside PP (ml_n ml + mo_n mo) (euler_client (eu_n s) p (eu_t s) t y)).
  { unfold euler_client. destruct (eu_n s) as [|[|k]]; [exact I| |now apply L2]. cbn. split; [exact Hp|]. split; [exact Hy|]. intros v Hv. unfold add_client. destruct (np_add y _); exact I. }
  rewrite (newest_only_safe U (list R) PP m) by assumption. unfold integrate, euler_client. rewrite Ep, Ey.
  destruct (eu_n s) as [|[|k]]; [reflexivity| |].
  - cbn. destruct (system_equation ml mo p (eu_t s) y) as [d|e]; cbn; [|reflexivity]. unfold add_client. destruct (np_add y (vscale (t - eu_t s) d)); reflexivity.
  - rewrite (L3 _ (S (S k)) []). destruct (nsteps_loop _ _ _ _ _); reflexivity.
Qed.
Print Assumptions euler_ignores_sharing.

(** Refuted for clients that keep a result: it changes under their hands.  Whatever the
    system, the first stage of the Runge-Kutta start is the derivative at the trial point instead of
    the initial point, and the estimated curvature is zero. *)
Theorem kept_result_changes_refuted :
  forall U (PP : U -> Prop) m ml mo u t0 h0 y0, load_total ml -> motor_total PP m mo -> PP u -> length y0 = (ml_n ml + mo_n mo)%nat ->
  exists f0 y1 f1, system_equation ml mo u t0 y0 = Ok f0 /\ np_add y0 (vscale h0 f0) = Ok y1 /\ system_equation ml mo u (t0 + h0) y1 = Ok f1 /\
  run_values (system_equation ml mo) [] (rk_start u t0 h0 y0) = Ok (f0, map2 Rplus f1 (vscale (-1) f0)) /\
  run_shared ml mo None 0 (rk_start u t0 h0 y0) = Ok (f1, map (fun _ => 0) f1).
Proof.
  intros U PP m ml mo u t0 h0 y0 Hl Hm Hu Hy. destruct (cache_after PP m ml mo None Hl Hm I u t0 y0 Hu Hy) as (f0 & E0 & L0 & P0).
  set (y1 := map2 Rplus y0 (vscale h0 f0)). assert (A1 : np_add y0 (vscale h0 f0) = Ok y1) by (unfold np_add, vscale; rewrite map_length, L0, Hy, Nat.eqb_refl; reflexivity).
  assert (Ly1 : length y1 = (ml_n ml + mo_n mo)%nat) by (unfold y1, vscale; rewrite map2_length, map_length; lia).
  assert (C0 : cache_ok (ml_n ml) (mo_n mo) (Some (f0, ml_n ml))) by (cbn; auto).
  destruct (cache_after PP m ml mo _ Hl Hm C0 u (t0 + h0) y1 Hu Ly1) as (f1 & E1 & L1 & P1).
  exists f0, y1, f1. split; [exact E0|]. split; [exact A1|]. split; [exact E1|]. unfold rk_start. split.
  - cbn [run_values]. rewrite E0. cbn [bind result_at rev app nth_error]. rewrite A1. cbn [run_values]. rewrite E1. cbn [bind result_at rev app nth_error].
    assert (G : np_add f1 (vscale (-1) f0) = Ok (map2 Rplus f1 (vscale (-1) f0))) by (unfold np_add, vscale; rewrite map_length, L0, L1, Nat.eqb_refl; reflexivity).
    now rewrite G.
  - cbn [run_shared]. rewrite P0. cbn [bind Nat.ltb Nat.leb]. rewrite A1. cbn [run_shared]. rewrite P1. cbn [bind Nat.ltb Nat.leb].
    assert (G : np_add f1 (vscale (-1) f1) = Ok (map (fun _ => 0) f1)).
    { unfold np_add, vscale. rewrite map_length, Nat.eqb_refl. f_equal. clear. induction f1 as [|a f1 IH]; cbn; [reflexivity|]. f_equal; [ring|exact IH]. }
    now rewrite G.
Qed.
Print Assumptions kept_result_changes_refuted.
(** The two stages differ: a permanently excited motor at rest, one volt. *)
Definition toy_perm : perm_par := {| pe_ra := 1; pe_la := 1; pe_psi := 1 |}.
Example kept_result_example :
  load_total const_load /\ motor_total (fun u : list R => length u = 1%nat) 1 (perm_motor toy_perm) /\
  run_values (system_equation const_load (perm_motor toy_perm)) [] (CCall [1] 0 [0; 0] (CCall [1] 0 [0; 1 / 2] (CRead 0 CRet))) = Ok [0; 1] /\
  run_shared const_load (perm_motor toy_perm) None 0 (CCall [1] 0 [0; 0] (CCall [1] 0 [0; 1 / 2] (CRead 0 CRet))) = Ok [0; 1 / 2].
Proof.
  split; [apply const_load_total|]. split; [apply perm_motor_total|]. split.
  - cbn. f_equal. f_equal. f_equal. field.
  - cbn. f_equal. f_equal. f_equal. field.
Qed.
Example newest_example : newest_only 0 (euler_client 3 [1] 0 1 [0; 0]) /\ ~ newest_only 0 (rk_start [1] 0 1 [0; 0]).
Proof.
  split; [cbn; repeat (split; [reflexivity|]; intros ?; unfold add_client; match goal with |- context [np_add ?a ?b] => destruct (np_add a b) end; cbn; auto)|].
  cbn. intros [_ H]. specialize (H [0; 0]). cbn in H. destruct H as [_ H]. specialize (H []). destruct H as [H _]. discriminate.
Qed.
