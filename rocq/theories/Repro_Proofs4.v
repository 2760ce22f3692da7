(** Proofs for [Repro_Props]: the solvers of the library. *)
From Verif Require Import PyBaseFacts Conv_Model Solver_Model Scipy_Model Scipy_Spec Full_Model Repro_Spec.

Section One.
Context {E U J : Type} (so : solver_if E U J).
(** Equal up to the inputs that are stored. *)
Definition up_to_inputs (e e' : E) : Prop := so_t so e = so_t so e' /\ so_y so e = so_y so e' /\ forall p, so_params so p e = so_params so p e'.
Lemma up_to_advance e e' p t : up_to_inputs e e' -> advance_solver so p t e = advance_solver so p t e'.
Proof. intros (_ & _ & H). unfold advance_solver. now rewrite H. Qed.
Lemma up_to_advances l : forall e e', up_to_inputs e e' -> up_to_inputs (advances so l e) (advances so l e').
Proof.
  induction l as [|[p t] l IH]; intros e e' H; [exact H|]. unfold advances in *. cbn [fold_left fst snd]. rewrite (up_to_advance e e' p t H). apply IH. split; [reflexivity|]. split; reflexivity.
Qed.
Lemma run_keeps (Q : E -> Prop) (h : list (sop U J)) : (forall y t e, Q e -> Q (fst (so_initial so y t e))) -> (forall p e, Q e -> Q (fst (so_params so p e))) -> (forall t e, Q e -> Q (fst (so_integrate so t e))) ->
  Forall keeps_eq h -> forall e, Q e -> Q (s_run so h e).
Proof.
  intros H1 H2 H3 H. unfold s_run. induction H as [|o h Ho Hh IH]; intros e He; [exact He|]. cbn [fold_left]. apply IH. destruct o; cbn [s_step]; auto. contradiction.
Qed.
End One.
Lemma forgets_from (s : any_solver) : (forall U (f : rhs U), exists Q : an_state s U -> Prop, let so := an_if s U in
  Q (so_equation so f (an_jacobian s U) (an_new s U)) /\ (forall y t e, Q e -> Q (fst (so_initial so y t e))) /\ (forall p e, Q e -> Q (fst (so_params so p e))) /\ (forall t e, Q e -> Q (fst (so_integrate so t e))) /\
  forall y t e e', Q e -> Q e' -> up_to_inputs so (fst (so_initial so y t e)) (fst (so_initial so y t e'))) -> solver_forgets s.
Proof.
  intros H U f h h' y t l Hh Hh' so e0 e e'. destruct (H U f) as (Q & Q0 & Q1 & Q2 & Q3 & Q4).
  assert (K : up_to_inputs so e e').
  { apply up_to_advances, Q4; (apply run_keeps; [exact Q1|exact Q2|exact Q3|assumption|exact Q0]). }
  split; [apply K|]. split; [apply K|]. intros p t1. now rewrite (up_to_advance so e e' p t1 K).
Qed.
Lemma euler_forgets n : solver_forgets (any_euler n).
Proof.
  apply forgets_from. intros U f. exists (fun e => es_eq e = Some f /\ es_jac e = None /\ eu_n (es_e e) = n). cbn [any_euler an_if euler_if so_equation so_initial so_params so_integrate an_new an_jacobian fst].
  split; [repeat split|]. split; [intros y t e H; exact H|]. split; [intros p e H; exact H|]. split.
  - intros t e (H1 & H2 & H3). rewrite H1. assert (K : eu_n (fst (integrate f (es_e e) t)) = eu_n (es_e e)).
    { unfold integrate. destruct (eu_p (es_e e)), (eu_y (es_e e)); try reflexivity. cbv zeta. match goal with |- context [match ?x with Ok _ => _ | Err _ => _ end] => destruct x end; reflexivity. }
    destruct (integrate f (es_e e) t) as [e1 r]. cbn [fst es_eq es_jac es_e] in *. repeat split; congruence.
  - intros y t e e' (H1 & H2 & H3) (K1 & K2 & K3). unfold up_to_inputs. cbn [euler_if so_t so_y so_params es_eq es_jac es_e]. unfold set_initial_value, set_f_params. cbn [eu_n eu_t eu_y eu_p]. rewrite H1, H2, H3, K1, K2, K3. auto.
Qed.
Section Scipy.
Context {K M : Type} {Jac : Type -> Type} (X : forall U, scipy U (Jac U) K M) (j : forall U, option (Jac U)) (k : K).
Lemma ode_forgets : solver_forgets (any_ode X j k).
Proof.
  apply forgets_from. intros U f. exists (fun e => od_k e = k /\ od_eq e = Some f /\ od_jac e = j U /\ exists o, od_ode e = Some o /\ oo_f o = f /\ oo_jac o = j U).
  cbn [any_ode an_if ode_if so_equation so_initial so_params so_integrate an_new an_jacobian]. split; [|split; [|split; [|split]]].
  - cbn. repeat split. eexists. repeat split.
  - intros y t e (H1 & H2 & H3 & o & H4 & H5 & H6). unfold od_set_initial. rewrite H4. cbn. repeat split; try assumption. eexists. repeat split; assumption.
  - intros p e (H1 & H2 & H3 & o & H4 & H5 & H6). unfold od_set_params. rewrite H4. cbn. repeat split; try assumption. eexists. repeat split; assumption.
  - intros t e (H1 & H2 & H3 & o & H4 & H5 & H6). unfold od_integrate. rewrite H4. destruct (x_run _ _ _ _ _ _ _ _ _) as [m [[y' t']|er]]; cbn; (repeat split; try assumption); eexists; repeat split; assumption.
  - intros y t e e' (H1 & H2 & H3 & o & H4 & H5 & H6) (K1 & K2 & K3 & o' & K4 & K5 & K6). unfold up_to_inputs, od_set_initial. rewrite H4, K4. cbn [ode_if so_t so_y so_params fst with_ode od_ode oo_t oo_y].
    split; [reflexivity|]. split; [reflexivity|]. intros p. unfold od_set_params, with_ode. cbn [od_ode od_k od_eq od_jac od_par oo_f oo_jac oo_t oo_y oo_mem]. rewrite H1, H2, H3, H5, H6, K1, K2, K3, K5, K6. reflexivity.
Qed.
Lemma ivp_forgets method kjac : solver_forgets (any_ivp X j k method kjac).
Proof.
  apply forgets_from. intros U f. exists (fun e => vp_k e = k /\ vp_method e = method /\ vp_kjac e = (if implicit_method method then Some (j U) else kjac U) /\ vp_eq e = Some f /\ vp_jac e = j U).
  cbn [any_ivp an_if ivp_if so_equation so_initial so_params so_integrate an_new an_jacobian fst]. split; [cbn; repeat split|]. split; [intros y t e H; exact H|]. split; [intros p e H; exact H|]. split.
  - intros t e H. unfold vp_integrate. repeat match goal with |- context [match ?x with _ => _ end] => destruct x end; exact H.
  - intros y t e e' (H1 & H2 & H3 & H4 & H5) (K1 & K2 & K3 & K4 & K5). unfold up_to_inputs, vp_with. cbn [ivp_if so_t so_y so_params vp_with vp_k vp_method vp_kjac vp_eq vp_jac vp_par vp_t vp_y]. unfold vp_with.
    cbn [vp_k vp_method vp_kjac vp_eq vp_jac vp_par vp_t vp_y]. rewrite H1, H2, H3, H4, H5, K1, K2, K3, K4, K5. auto.
Qed.
Lemma oint_forgets : solver_forgets (any_oint X j k).
Proof.
  apply forgets_from. intros U f. exists (fun e => ot_k e = k /\ ot_eq e = Some f /\ ot_jac e = j U).
  cbn [any_oint an_if oint_if so_equation so_initial so_params so_integrate an_new an_jacobian fst]. split; [cbn; repeat split|]. split; [intros y t e H; exact H|]. split; [intros p e H; exact H|]. split.
  - intros t e H. unfold ot_integrate. repeat match goal with |- context [match ?x with _ => _ end] => destruct x end; exact H.
  - intros y t e e' (H1 & H2 & H3) (K1 & K2 & K3). unfold up_to_inputs, ot_with. cbn [oint_if so_t so_y so_params]. unfold ot_with. cbn [ot_k ot_eq ot_jac ot_par ot_t ot_y]. rewrite H1, H2, H3, K1, K2, K3. auto.
Qed.
End Scipy.
