(** Proofs about solvers behind the interface of OdeSolver. *)
From Verif Require Import PyBaseFacts Conv_Model Solver_Model Solver_Spec Solver_Proofs PhysSys_Model PhysSys_Spec PhysSys_Proofs PhysSys_Proofs2 Scipy_Model Scipy_Spec.
Local Open Scope list_scope. Local Open Scope R_scope.

(** ** EulerSolver behind the interface is EulerSolver *)
Section Euler.
Context {C S A U V J : Type} (cv : conv_if C A) (sp : supply_if S) (f : rhs U) (j : option J) (tau : R).
Notation em := (embed (C:=C) (S:=S) f j).
Lemma euler_interval vv i x t : g_interval cv sp (euler_if (J:=J)) vv i (em x) t =
  (em (fst (sub_interval cv sp f vv i x t)), snd (sub_interval cv sp f vv i x t)).
Proof.
  unfold g_interval, sub_interval. cbn [embed gs_c gs_s gs_t gs_e]. destruct (cv_i_sup cv (sy_c x) i) as [isup|e]; [|reflexivity].
  destruct (sp_get sp (sy_s x) (sy_t x) isup) as [s' [us|e]]; [|reflexivity]. cbn [bind euler_if so_t es_e].
  cbn [g_with_s gs_c with_s sy_c sy_e embed]. destruct (cv_convert cv (sy_c x) i (eu_t (sy_e x))) as [c' [u|e]]; [|reflexivity].
  destruct (vv (scale_voltages u us)) as [p|e]; [|reflexivity].
  unfold advance_solver. cbn [so_params so_integrate euler_if es_eq es_e es_jac g_with_c g_with_s gs_e with_c with_s sy_e embed].
  destruct (integrate f (set_f_params p (sy_e x)) t) as [e' y]. reflexivity.
Qed.
Context (view : list R -> res V) (cur : V -> list R) (volt volt_last : V -> list R -> res U).
Lemma euler_intervals ts : forall v x, g_intervals cv sp (euler_if (J:=J)) view cur volt v (em x) ts =
  (em (fst (intervals cv sp f view cur volt v x ts)), snd (intervals cv sp f view cur volt v x ts)).
Proof.
  induction ts as [|t ts IH]; intros v x; cbn [g_intervals intervals]; [reflexivity|]. rewrite euler_interval.
  destruct (sub_interval cv sp f (volt v) (cur v) x t) as [x' [iv|e]]; cbn [fst snd]; [|reflexivity].
  destruct (view (iv_y iv)) as [v'|e]; [apply IH|reflexivity].
Qed.
Context (act : V -> A -> res A) (out : V -> interval U -> list R -> res (list R)) (limits : list lim).
Lemma euler_simulate a x : g_simulate cv sp (euler_if (J:=J)) tau view cur volt volt_last act out limits a (em x) =
  (em (fst (simulate cv sp f tau view cur volt volt_last act out limits a x)), snd (simulate cv sp f tau view cur volt volt_last act out limits a x)).
Proof.
  unfold g_simulate, simulate. cbn [embed gs_e euler_if so_y es_e]. destruct (eu_y (sy_e x)) as [y0|]; [|reflexivity]. cbn [bind].
  destruct (do v <- view y0; do a' <- act v a; Ok (v, a')) as [[v a']|e]; [|reflexivity].
  cbn [embed gs_c gs_t]. destruct (cv_set_action cv (sy_c x) a' (sy_t x)) as [c' [ts|e]]; [|reflexivity].
  change (g_with_c c' _) with (em (with_c c' x)). rewrite euler_intervals.
  destruct (intervals cv sp f view cur volt v (with_c c' x) (removelast ts)) as [x2 [v2|e]]; cbn [fst snd]; [|reflexivity].
  rewrite euler_interval. cbn [embed gs_t].
  destruct (sub_interval cv sp f (volt_last v2) (cur v2) x2 (sy_t x2 + tau)) as [x3 [iv|e]]; cbn [fst snd bind]; [|reflexivity].
  cbn [embed gs_e so_t euler_if es_e bind gs_state sy_state]. destruct (out v2 iv (sy_state x3)) as [st|e]; reflexivity.
Qed.
Context (obs : list R -> list R -> list R -> list R -> res (list R)).
Lemma euler_reset init x : g_reset cv sp (euler_if (J:=J)) limits obs init (em x) =
  (em (fst (reset cv sp limits obs init x)), snd (reset cv sp limits obs init x)).
Proof.
  unfold g_reset, reset. destruct init as [[mech ms]|e]; [|reflexivity]. cbn [embed gs_s].
  destruct (sp_reset sp (sy_s x)) as [s' [us|e]]; [|reflexivity]. cbn [g_with_s gs_c embed with_s sy_c].
  destruct (cv_reset cv (sy_c x)) as [c' u]. destruct (do u0 <- u; obs mech ms (scale_voltages u0 us) us) as [st|e]; reflexivity.
Qed.
Lemma euler_outcomes ops : forall x,
  outcomes (g_reset cv sp (euler_if (J:=J)) limits obs) (g_simulate cv sp (euler_if (J:=J)) tau view cur volt volt_last act out limits) ops (em x) =
  outcomes (reset cv sp limits obs) (simulate cv sp f tau view cur volt volt_last act out limits) ops x.
Proof.
  induction ops as [|[i|a] ops IH]; intros x; cbn [outcomes]; [reflexivity| |].
  - rewrite euler_reset. destruct (reset cv sp limits obs i x) as [x' r]. cbn [fst snd]. now rewrite IH.
  - rewrite euler_simulate. destruct (simulate cv sp f tau view cur volt volt_last act out limits a x) as [x' r]. cbn [fst snd]. now rewrite IH.
Qed.
End Euler.

(** ** Solvers that are alike give systems that are alike *)
Section Alike.
Context {C S A U V J E1 E2 : Type} (cv : conv_if C A) (sp : supply_if S) (s1 : solver_if E1 U J) (s2 : solver_if E2 U J) (tau : R).
Context (W Q : E1 -> E2 -> Prop).
Hypothesis HA : alike s1 s2 W Q.
Definition same_rest (P : E1 -> E2 -> Prop) (x : gsys C S E1) (z : gsys C S E2) : Prop :=
  gs_c x = gs_c z /\ gs_s x = gs_s z /\ gs_t x = gs_t z /\ gs_k x = gs_k z /\ gs_state x = gs_state z /\ P (gs_e x) (gs_e z).
Definition agree {B} (P : E1 -> E2 -> Prop) (a : call (gsys C S E1) B) (b : call (gsys C S E2) B) : Prop :=
  snd a = snd b /\ same_rest P (fst a) (fst b).
Ltac fin := split; [reflexivity|]; unfold same_rest; cbn; auto 10.

Lemma alike_interval vv i x z t : same_rest Q x z -> agree Q (g_interval cv sp s1 vv i x t) (g_interval cv sp s2 vv i z t).
Proof.
  intros (H1 & H2 & H3 & H4 & H5 & H6). unfold g_interval. rewrite <- H1, <- H2, <- H3.
  destruct (cv_i_sup cv (gs_c x) i) as [isup|e]; [|fin].
  destruct (sp_get sp (gs_s x) (gs_t x) isup) as [s' [us|e]]; cbn [bind]; [|fin].
  rewrite <- (al_t _ _ _ _ HA _ _ H6). destruct (so_t s1 (gs_e x)) as [now|e]; cbn [bind]; [|fin].
  cbn [g_with_s gs_c]. rewrite <- H1. destruct (cv_convert cv (gs_c x) i now) as [c' [u|e]]; [|fin].
  destruct (vv (scale_voltages u us)) as [p|e]; [|fin]. cbn [g_with_c g_with_s gs_e].
  destruct (al_advance _ _ _ _ HA _ _ p t H6) as [G1 G2]. destruct (advance_solver s1 p t (gs_e x)) as [e1 y1], (advance_solver s2 p t (gs_e z)) as [e2 y2].
  cbn [fst snd] in *. subst y2. split; [reflexivity|]. unfold same_rest. cbn. auto 10.
Qed.
Context (view : list R -> res V) (cur : V -> list R) (volt volt_last : V -> list R -> res U).
Lemma alike_intervals ts : forall v x z, same_rest Q x z -> agree Q (g_intervals cv sp s1 view cur volt v x ts) (g_intervals cv sp s2 view cur volt v z ts).
Proof.
  induction ts as [|t ts IH]; intros v x z H; cbn [g_intervals]; [split; [reflexivity|exact H]|].
  destruct (alike_interval (volt v) (cur v) x z t H) as [G1 G2].
  destruct (g_interval cv sp s1 (volt v) (cur v) x t) as [x' r1], (g_interval cv sp s2 (volt v) (cur v) z t) as [z' r2]. cbn [fst snd] in *. subst r2.
  destruct r1 as [iv|e]; [|split; [reflexivity|exact G2]]. destruct (view (iv_y iv)); [now apply IH|split; [reflexivity|exact G2]].
Qed.
Context (act : V -> A -> res A) (out : V -> interval U -> list R -> res (list R)) (limits : list lim).
Lemma alike_simulate a x z : same_rest Q x z ->
  agree Q (g_simulate cv sp s1 tau view cur volt volt_last act out limits a x) (g_simulate cv sp s2 tau view cur volt volt_last act out limits a z).
Proof.
  intros H. pose proof H as (H1 & H2 & H3 & H4 & H5 & H6). unfold g_simulate. rewrite <- (al_y _ _ _ _ HA _ _ H6), <- H1, <- H3.
  destruct (do y0 <- so_y s1 (gs_e x); do v <- view y0; do a' <- act v a; Ok (v, a')) as [[v a']|e]; [|split; [reflexivity|exact H]].
  destruct (cv_set_action cv (gs_c x) a' (gs_t x)) as [c' [ts|e]]; [|fin].
  assert (Hc : same_rest Q (g_with_c c' x) (g_with_c c' z)) by (unfold same_rest; cbn; auto 10).
  destruct (alike_intervals (removelast ts) v _ _ Hc) as [G1 G2].
  destruct (g_intervals cv sp s1 view cur volt v (g_with_c c' x) (removelast ts)) as [x2 r1], (g_intervals cv sp s2 view cur volt v (g_with_c c' z) (removelast ts)) as [z2 r2].
  cbn [fst snd] in *. subst r2. destruct r1 as [v2|e]; [|split; [reflexivity|exact G2]].
  replace (gs_t z2) with (gs_t x2) by apply G2.
  destruct (alike_interval (volt_last v2) (cur v2) _ _ (gs_t x2 + tau) G2) as [K1 K2].
  destruct (g_interval cv sp s1 (volt_last v2) (cur v2) x2 (gs_t x2 + tau)) as [x3 r1], (g_interval cv sp s2 (volt_last v2) (cur v2) z2 (gs_t x2 + tau)) as [z3 r2].
  cbn [fst snd] in *. subst r2. destruct r1 as [iv|e]; cbn [bind]; [|split; [reflexivity|exact K2]].
  pose proof K2 as (L1 & L2 & L3 & L4 & L5 & L6). rewrite <- (al_t _ _ _ _ HA _ _ L6). destruct (so_t s1 (gs_e x3)) as [now|e]; cbn [bind]; [|split; [reflexivity|exact K2]].
  cbn [gs_state]. rewrite <- L5. destruct (out v2 iv (gs_state x3)) as [st|e]; (split; [reflexivity|]); unfold same_rest; cbn; rewrite ?L4; auto 10.
Qed.
Context (obs : list R -> list R -> list R -> list R -> res (list R)).
(** After a reset the solvers have started, unless the reset raises before it reaches them. *)
Lemma alike_reset init x z : same_rest W x z ->
  snd (g_reset cv sp s1 limits obs init x) = snd (g_reset cv sp s2 limits obs init z) /\
  same_rest W (fst (g_reset cv sp s1 limits obs init x)) (fst (g_reset cv sp s2 limits obs init z)) /\
  ((exists o, snd (g_reset cv sp s1 limits obs init x) = Ok o) \/ same_rest Q x z ->
   same_rest Q (fst (g_reset cv sp s1 limits obs init x)) (fst (g_reset cv sp s2 limits obs init z))).
Proof.
  intros (H1 & H2 & H3 & H4 & H5 & H6). unfold g_reset.
  destruct init as [[mech ms]|e]; [|cbn; split; [reflexivity|]; split; [unfold same_rest; cbn; auto 10|]; intros [[o Ho]|H]; [discriminate|exact H]].
  rewrite <- H2. destruct (sp_reset sp (gs_s x)) as [s' [us|e]].
  2:{ cbn. split; [reflexivity|]. split; [unfold same_rest; cbn; auto 10|]. intros [[o Ho]|H]; [discriminate|]. destruct H as (? & ? & ? & ? & ? & ?). unfold same_rest; cbn; auto 10. }
  cbn [g_with_s gs_c]. rewrite <- H1. destruct (cv_reset cv (gs_c x)) as [c' u]. destruct (do u0 <- u; obs mech ms (scale_voltages u0 us) us) as [st|e].
  2:{ cbn. split; [reflexivity|]. split; [unfold same_rest; cbn; auto 10|]. intros [[o Ho]|H]; [discriminate|]. destruct H as (? & ? & ? & ? & ? & ?). unfold same_rest; cbn; auto 10. }
  cbn [g_with_c g_with_s gs_e gs_c gs_s gs_state]. destruct (al_initial _ _ _ _ HA _ _ (mech ++ ms) 0 H6) as (G1 & G2 & G3).
  destruct (so_initial s1 (mech ++ ms) 0 (gs_e x)) as [e1 r1], (so_initial s2 (mech ++ ms) 0 (gs_e z)) as [e2 r2]. cbn [fst snd] in *. subst r1 r2. cbn [fst snd].
  assert (HQ : same_rest Q {| gs_c := c'; gs_s := s'; gs_e := e1; gs_t := 0; gs_k := 0; gs_state := gs_state x |} {| gs_c := c'; gs_s := s'; gs_e := e2; gs_t := 0; gs_k := 0; gs_state := gs_state z |})
    by (unfold same_rest; cbn; auto 10).
  split; [reflexivity|]. split; [|intros _; exact HQ]. destruct HQ as (? & ? & ? & ? & ? & ?). unfold same_rest in *. cbn in *. repeat split; auto. now apply (al_weak _ _ _ _ HA).
Qed.
Lemma same_weak x z : same_rest Q x z -> same_rest W x z.
Proof. intros (? & ? & ? & ? & ? & ?). unfold same_rest. repeat split; auto. now apply (al_weak _ _ _ _ HA). Qed.
Lemma alike_outcomes ops : forall x z, same_rest Q x z ->
  outcomes (g_reset cv sp s1 limits obs) (g_simulate cv sp s1 tau view cur volt volt_last act out limits) ops x =
  outcomes (g_reset cv sp s2 limits obs) (g_simulate cv sp s2 tau view cur volt volt_last act out limits) ops z.
Proof.
  induction ops as [|[i|a] ops IH]; intros x z H; cbn [outcomes]; [reflexivity| |].
  - destruct (alike_reset i x z (same_weak _ _ H)) as (G1 & _ & G3). specialize (G3 (or_intror H)).
    destruct (g_reset cv sp s1 limits obs i x) as [x' r1], (g_reset cv sp s2 limits obs i z) as [z' r2]. cbn [fst snd] in *. subst r2. f_equal. now apply IH.
  - destruct (alike_simulate a x z H) as (G1 & G3).
    destruct (g_simulate cv sp s1 tau view cur volt volt_last act out limits a x) as [x' r1], (g_simulate cv sp s2 tau view cur volt volt_last act out limits a z) as [z' r2]. cbn [fst snd] in *. subst r2. f_equal. now apply IH.
Qed.
(** From construction on: first a reset that succeeds. *)
Lemma alike_from_new i ops x z o : same_rest W x z -> snd (g_reset cv sp s1 limits obs i x) = Ok o ->
  outcomes (g_reset cv sp s1 limits obs) (g_simulate cv sp s1 tau view cur volt volt_last act out limits) (OReset i :: ops) x =
  outcomes (g_reset cv sp s2 limits obs) (g_simulate cv sp s2 tau view cur volt volt_last act out limits) (OReset i :: ops) z.
Proof.
  intros H Ho. cbn [outcomes]. destruct (alike_reset i x z H) as (G1 & _ & G3). specialize (G3 (or_introl (ex_intro _ o Ho))).
  destruct (g_reset cv sp s1 limits obs i x) as [x' r1], (g_reset cv sp s2 limits obs i z) as [z' r2]. cbn [fst snd] in *. subst r2. f_equal. now apply alike_outcomes.
Qed.
End Alike.

(** ** The three wrappers *)
Lemma last_row_ends rows y : ends_in rows y -> last_row rows = Ok y.
Proof. intros [pre ->]. unfold last_row. now rewrite rev_app_distr. Qed.

Section Wrappers.
Context {U J K M : Type} (X : scipy U J K M) (f : rhs U) (flow : U -> R -> R -> list R -> res (list R)).
Hypothesis HX : solves X f flow.
Definition ode_has (a : ode_solver U J K M) : Prop := exists o, od_ode a = Some o /\ oo_f o = f.
Definition ivp_has (b : ivp_solver U J K) : Prop := vp_eq b = Some f.
Definition oint_has (b : oint_solver U J K) : Prop := ot_eq b = Some f.
Definition ode_at (a : ode_solver U J K M) (t : R) (y : list R) : Prop := exists o, od_ode a = Some o /\ oo_f o = f /\ oo_t o = t /\ oo_y o = y.

Lemma ode_advance a t0 y p t : ode_at a t0 y ->
  snd (advance_solver (ode_if X) p t a) = flow p t0 t y /\
  ode_at (fst (advance_solver (ode_if X) p t a)) (match flow p t0 t y with Ok _ => t | Err _ => t0 end) (match flow p t0 t y with Ok y' => y' | Err _ => y end).
Proof.
  intros (o & E1 & E2 & E3 & E4). destruct HX as (H1 & _ & _). unfold advance_solver. cbn [ode_if so_params so_integrate]. unfold od_set_params. rewrite E1.
  cbn. rewrite E2, E3, E4. destruct (H1 (oo_mem o) (oo_jac o) y t0 t p) as (m' & ->).
  destruct (flow p t0 t y) as [y'|e]; cbn; (split; [reflexivity|]); eexists; cbn; auto.
Qed.
Lemma ivp_advance b t0 y p t : ivp_has b -> vp_t b = t0 -> vp_y b = Some y ->
  snd (advance_solver (ivp_if X) p t b) = flow p t0 t y /\ ivp_has (fst (advance_solver (ivp_if X) p t b)) /\
  vp_t (fst (advance_solver (ivp_if X) p t b)) = (match flow p t0 t y with Ok _ => t | Err _ => t0 end) /\
  vp_y (fst (advance_solver (ivp_if X) p t b)) = Some (match flow p t0 t y with Ok y' => y' | Err _ => y end).
Proof.
  intros E1 E2 E3. destruct HX as (_ & H1 & _). unfold advance_solver. cbn [ivp_if so_params so_integrate]. unfold vp_integrate. cbn [vp_with vp_k vp_method vp_kjac vp_eq vp_t vp_y vp_par].
  rewrite E1, E2, E3. specialize (H1 (vp_k b) (vp_method b) (vp_kjac b) y t0 t p). destruct (flow p t0 t y) as [y'|e].
  - destruct H1 as (rows & -> & Hr). rewrite (last_row_ends _ _ Hr). cbn. auto.
  - rewrite H1. cbn. auto.
Qed.
Lemma oint_advance b t0 y p t : oint_has b -> ot_t b = t0 -> ot_y b = Some y ->
  snd (advance_solver (oint_if X) p t b) = flow p t0 t y /\ oint_has (fst (advance_solver (oint_if X) p t b)) /\
  ot_t (fst (advance_solver (oint_if X) p t b)) = (match flow p t0 t y with Ok _ => t | Err _ => t0 end) /\
  ot_y (fst (advance_solver (oint_if X) p t b)) = Some (match flow p t0 t y with Ok y' => y' | Err _ => y end).
Proof.
  intros E1 E2 E3. destruct HX as (_ & _ & H1). unfold advance_solver. cbn [oint_if so_params so_integrate]. unfold ot_integrate. cbn [ot_with ot_k ot_eq ot_jac ot_t ot_y ot_par].
  rewrite E1, E2, E3. specialize (H1 (ot_k b) (ot_jac b) y t0 t p). destruct (flow p t0 t y) as [y'|e].
  - destruct H1 as (rows & -> & Hr). rewrite (last_row_ends _ _ Hr). cbn. auto.
  - rewrite H1. cbn. auto.
Qed.

Lemma ode_ivp_alike : alike (ode_if X) (ivp_if X) (fun a b => ode_has a /\ ivp_has b) (fun a b => exists t y, ode_at a t y /\ ivp_has b /\ vp_t b = t /\ vp_y b = Some y).
Proof.
  constructor.
  - intros a b (t & y & (o & E1 & E2 & _) & H & _). split; [|exact H]. exists o. auto.
  - intros a b (t & y & (o & E1 & E2 & E3 & E4) & H & H1 & H2). cbn. rewrite E1, H1, E3. reflexivity.
  - intros a b (t & y & (o & E1 & E2 & E3 & E4) & H & H1 & H2). cbn. rewrite E1, H2, E4. reflexivity.
  - intros a b y t ((o & E1 & E2) & H). cbn. unfold od_set_initial. rewrite E1. cbn. split; [reflexivity|]. split; [reflexivity|]. exists t, y. split; [|auto]. eexists. cbn. eauto.
  - intros a b p t (t0 & y & Ha & Hb & H1 & H2). destruct (ode_advance a t0 y p t Ha) as [G1 G2]. destruct (ivp_advance b t0 y p t Hb H1 H2) as (K1 & K2 & K3 & K4).
    split; [congruence|]. eexists _, _. split; [exact G2|]. auto.
Qed.
Lemma ode_oint_alike : alike (ode_if X) (oint_if X) (fun a b => ode_has a /\ oint_has b) (fun a b => exists t y, ode_at a t y /\ oint_has b /\ ot_t b = t /\ ot_y b = Some y).
Proof.
  constructor.
  - intros a b (t & y & (o & E1 & E2 & _) & H & _). split; [|exact H]. exists o. auto.
  - intros a b (t & y & (o & E1 & E2 & E3 & E4) & H & H1 & H2). cbn. rewrite E1, H1, E3. reflexivity.
  - intros a b (t & y & (o & E1 & E2 & E3 & E4) & H & H1 & H2). cbn. rewrite E1, H2, E4. reflexivity.
  - intros a b y t ((o & E1 & E2) & H). cbn. unfold od_set_initial. rewrite E1. cbn. split; [reflexivity|]. split; [reflexivity|]. exists t, y. split; [|auto]. eexists. cbn. eauto.
  - intros a b p t (t0 & y & Ha & Hb & H1 & H2). destruct (ode_advance a t0 y p t Ha) as [G1 G2]. destruct (oint_advance b t0 y p t Hb H1 H2) as (K1 & K2 & K3 & K4).
    split; [congruence|]. eexists _, _. split; [exact G2|]. auto.
Qed.
End Wrappers.

(** ** Punctual solvers *)
Lemma euler_punctual {U J} : punctual (euler_if (U:=U) (J:=J)).
Proof.
  constructor.
  - intros p e. split; reflexivity.
  - intros y t e _. split; reflexivity.
  - intros t e y H. cbn in *. destruct (es_eq e) as [f|]; [|discriminate]. destruct (integrate f (es_e e) t) as [e' r] eqn:E. cbn in *. subst r.
    destruct (integrate_inv _ _ _ _ _ E) as (p & y0 & H1 & H2 & H3). subst e'. cbn. auto.
Qed.
