(** The four solvers: which contracts they meet. *)
From Verif Require Import PyBaseFacts Conv_Model Solver_Model Solver_Spec Solver_Proofs PhysSys_Model PhysSys_Spec PhysSys_Proofs PhysSys_Proofs2
  Scipy_Model Scipy_Spec Scipy_Proofs Scipy_Proofs2.
Local Open Scope list_scope. Local Open Scope R_scope.

Lemma ivp_punctual {U J K M} (X : scipy U J K M) : punctual (ivp_if X).
Proof.
  constructor.
  - intros p e. split; reflexivity.
  - intros y t e _. split; reflexivity.
  - intros t e y. cbn. unfold vp_integrate. destruct (x_ivp X (vp_k e) (vp_method e) (vp_kjac e) (vp_eq e) (vp_t e) t (vp_y e) (vp_par e)) as [rows|er]; [|discriminate].
    destruct (match rows with Some rows => last_row rows | None => Err AttributeError end) as [y'|er]; [|discriminate]. cbn. intros H. injection H as <-. auto.
Qed.
Lemma oint_punctual {U J K M} (X : scipy U J K M) : punctual (oint_if X).
Proof.
  constructor.
  - intros p e. split; reflexivity.
  - intros y t e _. split; reflexivity.
  - intros t e y. cbn. unfold ot_integrate. destruct (x_odeint X (ot_k e) (ot_eq e) (ot_jac e) (ot_y e) (ot_t e) t (ot_par e)) as [rows|er]; [|discriminate].
    destruct (last_row rows) as [y'|er]; [|discriminate]. cbn. intros H. injection H as <-. auto.
Qed.
(** [ode] is punctual if its integrators reach the end of the interval. *)
Definition reaches_end {U J K M} (X : scipy U J K M) : Prop :=
  forall m f j y t0 t1 fp jp m' y' t', x_run X m f j y t0 t1 fp jp = (m', Ok (y', t')) -> t' = t1.
Lemma ode_punctual {U J K M} (X : scipy U J K M) : reaches_end X -> punctual (ode_if X).
Proof.
  intros HX. constructor.
  - intros p e. cbn. unfold od_set_params. destruct (od_ode e); cbn; auto.
  - intros y t e. cbn. unfold od_set_initial. destruct (od_ode e); cbn; [auto|discriminate].
  - intros t e y. cbn. unfold od_integrate. destruct (od_ode e) as [o|]; [|discriminate].
    destruct (x_run X (oo_mem o) (oo_f o) (oo_jac o) (oo_y o) (oo_t o) t (oo_fp o) (oo_jp o)) as [m [[y' t']|er]] eqn:E; [|discriminate].
    cbn. intros H. injection H as <-. apply HX in E. subst t'. auto.
Qed.

Section Total.
Context {U J K M : Type} (X : scipy U J K M) (f : rhs U) (PP : U -> Prop) (n : nat).
Definition euler_B (e : euler_solver U J) : Prop := es_eq e = Some f /\ (1 <= eu_n (es_e e))%nat.
Definition euler_Q (e : euler_solver U J) : Prop := euler_B e /\ exists y, eu_y (es_e e) = Some y /\ length y = n.
Lemma euler_works : defined_on f PP n -> solver_total (euler_if (J:=J)) PP n euler_B euler_Q.
Proof.
  intros Hf. constructor.
  - intros e [H _]. exact H.
  - intros y t e [H1 H2] Hy. cbn. eexists. split; [reflexivity|]. split; [split; [exact H1|exact H2]|]. exists y. auto.
  - intros p t e [[H1 H2] (y & Hy & Hl)] Hp. unfold advance_solver. cbn [euler_if so_params so_integrate so_y es_eq es_e es_jac]. rewrite H1.
    destruct (integrate_total f n (eu_n (es_e e)) p H2 (fun t y => Hf p t y Hp) (eu_t (es_e e)) t y Hl) as (y' & E & Hy').
    replace (set_f_params p (es_e e)) with ({| eu_n := eu_n (es_e e); eu_t := eu_t (es_e e); eu_y := Some y; eu_p := Some p |})
      by (unfold set_f_params; now rewrite Hy).
    rewrite E. eexists _, y'. split; [reflexivity|]. split; [exact Hy'|]. split; [|reflexivity]. split; [split; [reflexivity|exact H2]|]. exists y'. auto.
  - intros e _. cbn. eauto.
  - intros e [_ (y & Hy & Hl)]. cbn. rewrite Hy. eauto.
Qed.
Definition ode_B (e : ode_solver U J K M) : Prop := exists o, od_ode e = Some o /\ oo_f o = f.
Definition ode_Q (e : ode_solver U J K M) : Prop := exists o, od_ode e = Some o /\ oo_f o = f /\ length (oo_y o) = n.
Definition ivp_B (e : ivp_solver U J K) : Prop := vp_eq e = Some f.
Definition ivp_Q (e : ivp_solver U J K) : Prop := vp_eq e = Some f /\ exists y, vp_y e = Some y /\ length y = n.
Definition oint_B (e : oint_solver U J K) : Prop := ot_eq e = Some f.
Definition oint_Q (e : oint_solver U J K) : Prop := ot_eq e = Some f /\ exists y, ot_y e = Some y /\ length y = n.
Hypothesis HX : keeps_working X f PP n.
Lemma ode_works : solver_total (ode_if X) PP n ode_B ode_Q.
Proof.
  destruct HX as (H1 & _ & _). constructor.
  - intros e (o & E1 & E2 & _). exists o. auto.
  - intros y t e (o & E1 & E2) Hy. cbn. unfold od_set_initial. rewrite E1. eexists. split; [reflexivity|]. eexists. cbn. auto.
  - intros p t e (o & E1 & E2 & Hl) Hp. unfold advance_solver. cbn. unfold od_set_params. rewrite E1. cbn. rewrite E2.
    destruct (H1 (oo_mem o) (oo_jac o) (oo_y o) (oo_t o) t p Hl Hp) as (m' & y' & t' & -> & Hy'). eexists _, y'. split; [reflexivity|]. split; [exact Hy'|]. split; [|reflexivity].
    eexists. cbn. auto.
  - intros e (o & E1 & _). cbn. rewrite E1. eauto.
  - intros e (o & E1 & _ & Hl). cbn. rewrite E1. eauto.
Qed.
Lemma ivp_works : solver_total (ivp_if X) PP n ivp_B ivp_Q.
Proof.
  destruct HX as (_ & H1 & _). constructor.
  - intros e (H & _). exact H.
  - intros y t e E1 Hy. cbn. eexists. split; [reflexivity|]. split; [exact E1|]. exists y. auto.
  - intros p t e (E1 & y & Ey & Hl) Hp. unfold advance_solver. cbn. unfold vp_integrate. cbn [vp_with vp_k vp_method vp_kjac vp_eq vp_t vp_y vp_par]. rewrite E1, Ey.
    destruct (H1 (vp_k e) (vp_method e) (vp_kjac e) y (vp_t e) t p Hl Hp) as (pre & y' & -> & Hy'). rewrite (last_row_ends (pre ++ [y']) y') by (exists pre; reflexivity).
    eexists _, y'. split; [reflexivity|]. split; [exact Hy'|]. split; [|reflexivity]. split; [exact E1|]. exists y'. auto.
  - intros e _. cbn. eauto.
  - intros e (_ & y & Ey & Hl). cbn. rewrite Ey. eauto.
Qed.
Lemma oint_works : solver_total (oint_if X) PP n oint_B oint_Q.
Proof.
  destruct HX as (_ & _ & H1). constructor.
  - intros e (H & _). exact H.
  - intros y t e E1 Hy. cbn. eexists. split; [reflexivity|]. split; [exact E1|]. exists y. auto.
  - intros p t e (E1 & y & Ey & Hl) Hp. unfold advance_solver. cbn. unfold ot_integrate. cbn [ot_with ot_k ot_eq ot_jac ot_t ot_y ot_par]. rewrite E1, Ey.
    destruct (H1 (ot_k e) (ot_jac e) y (ot_t e) t p Hl Hp) as (pre & y' & -> & Hy'). rewrite (last_row_ends (pre ++ [y']) y') by (exists pre; reflexivity).
    eexists _, y'. split; [reflexivity|]. split; [exact Hy'|]. split; [|reflexivity]. split; [exact E1|]. exists y'. auto.
  - intros e _. cbn. eauto.
  - intros e (_ & y & Ey & Hl). cbn. rewrite Ey. eauto.
Qed.
End Total.

(** ** What the wrapper of [ode] holds, after any calls *)
Section Consistent.
Context {U J K M : Type} (X : scipy U J K M).
Definition consistent (eq : option (rhs U * option J)) (s : ode_solver U J K M) : Prop :=
  match eq, od_ode s with
  | None, None => od_eq s = None
  | Some (f, j), Some o => oo_f o = f /\ oo_jac o = j /\ od_eq s = Some f /\ od_jac s = j /\ oo_fp o = oo_jp o /\ (oo_fp o = None \/ oo_fp o = od_par s)
  | _, _ => False
  end.
Lemma consistent_step o eq s : consistent eq s -> consistent (match o with SEq f j => Some (f, j) | _ => eq end) (s_step (ode_if X) o s).
Proof.
  unfold consistent. destruct o as [f j|y t|p|t]; cbn.
  - intros _. auto 10.
  - destruct eq as [[f j]|], (od_ode s) as [o|] eqn:Eo; unfold od_set_initial; rewrite Eo; cbn; rewrite ?Eo; auto.
  - destruct eq as [[f j]|], (od_ode s) as [o|] eqn:Eo; unfold od_set_params; rewrite Eo; cbn; rewrite ?Eo; tauto.
  - destruct eq as [[f j]|], (od_ode s) as [o|] eqn:Eo; unfold od_integrate; rewrite Eo; cbn; rewrite ?Eo; try tauto; try (intros H; contradiction).
    intros H. destruct (x_run X (oo_mem o) (oo_f o) (oo_jac o) (oo_y o) (oo_t o) t (oo_fp o) (oo_jp o)) as [m [[y' t']|er]]; cbn; exact H.
Qed.
Lemma consistent_run ops : forall eq s, consistent eq s ->
  consistent (fold_left (fun acc o => match o with SEq f j => Some (f, j) | _ => acc end) ops eq) (s_run (ode_if X) ops s).
Proof.
  unfold s_run. induction ops as [|o ops IH]; intros eq s H; cbn [fold_left]; [exact H|]. apply IH. now apply consistent_step.
Qed.
Definition vp_consistent (eq : option (rhs U * option J)) (s : ivp_solver U J K) : Prop :=
  match eq with None => True | Some (f, j) => vp_eq s = Some f /\ vp_jac s = j /\ (implicit_method (vp_method s) = true -> vp_kjac s = Some j) end.
Lemma vp_consistent_step o eq s : vp_consistent eq s -> vp_consistent (match o with SEq f j => Some (f, j) | _ => eq end) (s_step (ivp_if X) o s).
Proof.
  unfold vp_consistent. destruct o as [f j|y t|p|t]; cbn.
  - intros _. split; [reflexivity|]. split; [reflexivity|]. intros ->. reflexivity.
  - destruct eq as [[f j]|]; auto.
  - destruct eq as [[f j]|]; auto.
  - destruct eq as [[f j]|]; auto. intros H. unfold vp_integrate. destruct (x_ivp X (vp_k s) (vp_method s) (vp_kjac s) (vp_eq s) (vp_t s) t (vp_y s) (vp_par s)) as [rows|er]; [|exact H].
    destruct (match rows with Some rows => last_row rows | None => Err AttributeError end); exact H.
Qed.
Lemma vp_consistent_run ops : forall eq s, vp_consistent eq s ->
  vp_consistent (fold_left (fun acc o => match o with SEq f j => Some (f, j) | _ => acc end) ops eq) (s_run (ivp_if X) ops s).
Proof.
  unfold s_run. induction ops as [|o ops IH]; intros eq s H; cbn [fold_left]; [exact H|]. apply IH. now apply vp_consistent_step.
Qed.
Lemma vp_method_run ops : forall s, vp_method (s_run (ivp_if X) ops s) = vp_method s /\ (implicit_method (vp_method s) = false -> vp_kjac (s_run (ivp_if X) ops s) = vp_kjac s).
Proof.
  unfold s_run. induction ops as [|o ops IH]; intros s; cbn [fold_left]; [auto|]. destruct (IH (s_step (ivp_if X) o s)) as [-> H2].
  assert (G : vp_method (s_step (ivp_if X) o s) = vp_method s /\ (implicit_method (vp_method s) = false -> vp_kjac (s_step (ivp_if X) o s) = vp_kjac s)).
  { destruct o as [f j|y t|p|t]; cbn; auto.
    - split; [reflexivity|]. now intros ->.
    - unfold vp_integrate. destruct (x_ivp X (vp_k s) (vp_method s) (vp_kjac s) (vp_eq s) (vp_t s) t (vp_y s) (vp_par s)) as [rows|er]; [|auto].
      destruct (match rows with Some rows => last_row rows | None => Err AttributeError end); auto. }
  destruct G as [G1 G2]. split; [exact G1|]. intros H. rewrite H2; [auto|congruence].
Qed.
End Consistent.
