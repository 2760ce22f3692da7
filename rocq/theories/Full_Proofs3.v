(** Proofs about the assembled environments: no history of calls breaks the protocol. *)
From Verif Require Import PyBaseFacts PyDictFacts Utils_Model Utils_Proofs Solver_Model Conv_Model Supply_Model PhysSys_Model Wrap_Model Wrap_Spec Wrap_Proofs2 RefGen_Model RefGen_Spec RefGen_Proofs RefGen_Proofs2
  Constraint_Model Constraint_Spec Constraint_Proofs Reward_Model Reward_Proofs Preset_Model Env_Model Full_Model Full_Spec Full_Proofs Full_Proofs2.
Local Open Scope string_scope. Local Open Scope list_scope. Local Open Scope R_scope.

(** ** Any environment whose modules keep their contracts *)
Section Contract.
Context {Act Ref Obs P G W : Type} (sys : system Act Ref Obs P G W) (n : nat) (valid : Act -> Prop) (P0 P1 : P -> Prop) (G0 G1 : G -> Prop) (W0 : W -> Prop) (fr : Ref -> Prop) (fo : Obs -> Prop).
Record contract : Prop := {
  ct_weaken : (forall s, P1 s -> P0 s) /\ (forall g, G1 g -> G0 g);
  ct_seed : forall s g w z, P0 s -> G0 g -> W0 w -> exists s' g' w', seed_all sys (s, g, w) z = (s', g', w') /\ P0 s' /\ G0 g' /\ W0 w';
  ct_reset : forall s, P0 s -> exists s' o, ps_reset sys s = (s', Ok o) /\ P1 s' /\ length o = n;
  ct_sim : forall s a, P1 s -> valid a -> exists s' o, ps_simulate sys s a = (s', Ok o) /\ P1 s' /\ length o = n;
  ct_rg_reset : forall g st, G0 g -> length st = n -> exists g' r o, rg_reset sys g st = (g', Ok (r, o)) /\ G1 g' /\ fr r /\ fo o;
  ct_rg_get : forall g st, G1 g -> length st = n -> exists g' r, rg_get sys g st = (g', Ok r) /\ G1 g' /\ fr r;
  ct_rg_obs : forall g st, G1 g -> length st = n -> exists g' o, rg_obs sys g st = (g', Ok o) /\ G1 g' /\ fo o;
  ct_rw_reset : forall w st r, W0 w -> length st = n -> fr r -> exists w', rw_reset sys w st r = (w', Ok tt) /\ W0 w';
  ct_rw : forall w st r k a d, W0 w -> length st = n -> fr r -> exists w' x, rw_reward sys w st r k a d = (w', Ok x) /\ W0 w';
  ct_check : forall st, length st = n -> exists d, cm_check sys st = Ok d;
  ct_cb : forall tr i e, cb_raises sys tr i e = None }.
Context (HC : contract) (f : list nat) (Hf : forall i, In i f -> (i < n)%nat).
Definition einv (w : world Act Ref P G W) : Prop :=
  let e := w_env w in e_filter e = f /\ W0 (e_rw e) /\ e_truncated e = false /\ P0 (e_ps e) /\ G0 (e_rg e) /\ (e_terminated e = false -> P1 (e_ps e) /\ G1 (e_rg e)).

Lemma from_ok ev m : forall i w, exists tr, call_from sys i m ev w = ({| w_env := w_env w; w_trace := tr |}, Ok tt).
Proof.
  induction m as [|m IH]; intros i [e tr]; cbn [call_from]; [exists tr; reflexivity|]. unfold mbind, call_one. cbn [w_trace]. rewrite (ct_cb HC). cbn [w_env].
  destruct (IH (S i) {| w_env := e; w_trace := tr ++ [(i, ev)] |}) as (tr' & ->). exists tr'. reflexivity.
Qed.
Lemma callbacks_ok ev w : exists tr, call_callbacks sys ev w = ({| w_env := w_env w; w_trace := tr |}, Ok tt).
Proof. apply from_ok. Qed.
Lemma select_f (st : list R) : length st = n -> exists o, select f st = Ok o /\ length o = length f.
Proof. intros H. destruct (select_ok f st) as (o & E & L & _); [intros i Hi; rewrite H; auto|]. eauto. Qed.

Lemma mbind_ok {A B} (m : M (Act:=Act) (Ref:=Ref) (P:=P) (G:=G) (W:=W) A) (g : A -> M B) w w' a : m w = (w', Ok a) -> mbind m g w = g a w'.
Proof. intros H. unfold mbind. now rewrite H. Qed.
Ltac stp E := erewrite mbind_ok by exact E.

Lemma reset_good z w : einv w -> exists w' st o, env_reset sys z w = (w', Ok (st, o)) /\ einv w' /\ e_terminated (w_env w') = false /\ length st = length f /\ fo o.
Proof.
  intros (F & HW & HT & HP & HG & _). destruct w as [e tr]. cbn [w_env] in *. unfold env_reset.
  destruct (ct_seed HC (e_ps e) (e_rg e) (e_rw e) z HP HG HW) as (s1 & g1 & w1 & Es & HP1 & HG1 & HW1).
  erewrite mbind_ok by (unfold m_seed, put_env; cbn [w_env w_trace]; rewrite Es; reflexivity).
  set (e1 := with_ps s1 (with_rg g1 (with_rw w1 e))). destruct (callbacks_ok OnResetBegin {| w_env := e1; w_trace := tr |}) as (tr1 & E1). stp E1. cbn [w_env].
  erewrite mbind_ok by reflexivity. cbn [w_env w_trace].
  destruct (ct_reset HC s1 HP1) as (s2 & st & E2 & HP2 & Hst). erewrite mbind_ok by (unfold call_ps; cbn [w_env w_trace with_terminated with_ps with_rg with_rw e1 e_ps]; rewrite E2; reflexivity).
  destruct (ct_rg_reset HC g1 st HG1 Hst) as (g2 & r & o & E3 & HG2 & Hr & Ho).
  erewrite mbind_ok by (unfold call_rg; cbn [w_env w_trace with_terminated with_ps with_rg with_rw e1 e_ps e_rg]; rewrite E3; reflexivity).
  destruct (ct_rw_reset HC w1 st r HW1 Hst Hr) as (w2 & E4 & HW2).
  erewrite mbind_ok by (unfold call_rw; cbn [w_env w_trace with_terminated with_ps with_rg with_rw e1 e_ps e_rg e_rw fst]; rewrite E4; reflexivity).
  match goal with |- context [mbind (call_callbacks sys ?ev) _ ?w0] => destruct (callbacks_ok ev w0) as (tr2 & E5) end. stp E5.
  destruct (select_f st Hst) as (ob & E6 & Lob).
  erewrite mbind_ok by (unfold filtered, mbind, get_env, lift; cbn [w_env with_terminated with_ps with_rg with_rw e1 e_filter]; rewrite F, E6; reflexivity).
  unfold ret. eexists _, ob, o. split; [reflexivity|]. split; [|split; [reflexivity|split; assumption]]. unfold einv. cbn [w_env with_terminated with_ps with_rg with_rw e1 e_filter e_rw e_truncated e_ps e_rg e_terminated].
  split; [exact F|]. split; [exact HW2|]. split; [exact HT|]. split; [apply (ct_weaken HC); exact HP2|]. split; [apply (ct_weaken HC); exact HG2|]. auto.
Qed.

Lemma step_good a w : einv w -> valid a ->
  (e_terminated (w_env w) = true /\ env_step sys a w = (w, Err AssertionError)) \/
  (e_terminated (w_env w) = false /\ exists w' o, env_step sys a w = (w', Ok o) /\ einv w' /\ e_terminated (w_env w') = so_terminated o /\ so_truncated o = false /\ length (so_state o) = length f /\ fo (so_ref o)).
Proof.
  intros (F & HW & HT & HP & HG & HR) Hv. destruct w as [e tr]. cbn [w_env] in *. unfold env_step. erewrite mbind_ok by reflexivity. cbn [w_env].
  destruct (e_terminated e) eqn:Ht; [left; split; [reflexivity|reflexivity]|right; split; [reflexivity|]]. destruct (HR eq_refl) as [HP1 HG1]. clear HP HG HR.
  erewrite mbind_ok by reflexivity. match goal with |- context [mbind (call_callbacks sys ?ev) _ ?w0] => destruct (callbacks_ok ev w0) as (tr1 & E1) end. stp E1. cbn [w_env].
  destruct (ct_sim HC (e_ps e) a HP1 Hv) as (s2 & st & E2 & HP2 & Hst). erewrite mbind_ok by (unfold call_ps; cbn [w_env w_trace]; rewrite E2; reflexivity).
  destruct (ct_rg_get HC (e_rg e) st HG1 Hst) as (g2 & r & E3 & HG2 & Hr). erewrite mbind_ok by (unfold call_rg; cbn [w_env w_trace with_ps e_rg]; rewrite E3; reflexivity).
  destruct (ct_check HC st Hst) as (deg & E4). erewrite mbind_ok by (unfold lift; rewrite E4; reflexivity). erewrite mbind_ok by reflexivity. cbn [w_env with_ps with_rg e_ps].
  destruct (ct_rw HC (e_rw e) st r (ps_k sys s2) a deg HW Hst Hr) as (w2 & x & E5 & HW2). erewrite mbind_ok by (unfold call_rw; cbn [w_env w_trace with_ps with_rg e_rw]; rewrite E5; reflexivity).
  erewrite mbind_ok by reflexivity. cbn [w_env w_trace].
  destruct (ct_rg_obs HC g2 st HG2 Hst) as (g3 & o & E6 & HG3 & Ho). erewrite mbind_ok by (unfold call_rg; cbn [w_env w_trace with_terminated with_ps with_rg with_rw e_rg]; rewrite E6; reflexivity).
  erewrite mbind_ok by reflexivity. match goal with |- context [mbind (call_callbacks sys ?ev) _ ?w0] => destruct (callbacks_ok ev w0) as (tr2 & E7) end. stp E7.
  destruct (select_f st Hst) as (ob & E8 & Lob).
  erewrite mbind_ok by (unfold filtered, mbind, get_env, lift; cbn [w_env with_terminated with_ps with_rg with_rw e_filter]; rewrite F, E8; reflexivity).
  erewrite mbind_ok by reflexivity. unfold ret. cbn [w_env]. eexists _, _. split; [reflexivity|]. cbn [so_terminated so_truncated so_state so_ref].
  unfold einv. cbn [w_env with_terminated with_ps with_rg with_rw e_filter e_rw e_truncated e_ps e_rg e_terminated].
  split; [|split; [reflexivity|split; [exact HT|split; assumption]]].
  split; [exact F|]. split; [exact HW2|]. split; [exact HT|]. split; [apply (ct_weaken HC); exact HP2|]. split; [apply (ct_weaken HC); exact HG3|]. auto.
Qed.

Lemma contract_protocol ops : Forall (allowed valid) ops -> forall w, einv w -> protocol (length f) fo (e_terminated (w_env w)) (snd (Env_Model.run sys ops w)).
Proof.
  induction ops as [|o ops IH]; intros Ho w HE; cbn [Env_Model.run]; [constructor|]. inversion Ho as [|? ? H1 H2]; subst. destruct o as [z|a|g|r|]; try contradiction; cbn [run_op].
  - destruct (reset_good z w HE) as (w' & st & ob & E & HE' & Ht & L1 & L2). rewrite E. specialize (IH H2 w' HE'). rewrite Ht in IH. destruct (Env_Model.run sys ops w') as [w2 outs]. constructor; assumption.
  - destruct (step_good a w HE H1) as [[Ht E]|(Ht & w' & o & E & HE' & Ho' & T & L1 & L2)]; rewrite E.
    + specialize (IH H2 w HE). rewrite Ht in *. destruct (Env_Model.run sys ops w) as [w2 outs]. constructor. assumption.
    + specialize (IH H2 w' HE'). rewrite Ho' in IH. rewrite Ht. destruct (Env_Model.run sys ops w') as [w2 outs]. constructor; assumption.
  - unfold env_close. destruct (callbacks_ok OnClose w) as (tr & E). rewrite E. specialize (IH H2 {| w_env := w_env w; w_trace := tr |} HE). destruct (Env_Model.run sys ops _) as [w2 outs]. constructor. exact IH.
Qed.
Lemma init_protocol p g w : P0 p -> G0 g -> W0 w -> exists w1, env_init sys p g w f = (w1, Ok tt) /\ forall ops, Forall (allowed valid) ops -> protocol (length f) fo true (snd (Env_Model.run sys ops w1)).
Proof.
  intros HP HG HW. unfold env_init. match goal with |- context [call_callbacks sys ?ev ?w0] => destruct (callbacks_ok ev w0) as (tr & E) end. rewrite E. eexists. split; [reflexivity|].
  intros ops Ho. cbn [w_env]. set (w1 := {| w_env := _; w_trace := tr |}). change true with (e_terminated (w_env w1)). apply contract_protocol; [exact Ho|].
  split; [reflexivity|]. split; [exact HW|]. split; [reflexivity|]. split; [exact HP|]. split; [exact HG|]. discriminate.
Qed.
End Contract.

(** ** Constraints *)
Lemma sc_positions_ok ss names : (forall s, In s ss -> In s names) -> exists idx, sc_positions ss names = Ok idx /\ forall i, In i idx -> (i < length names)%nat.
Proof.
  induction ss as [|s ss IH]; intros H; cbn [sc_positions]; [exists []; split; [reflexivity|intros i []]|].
  destruct (str_index_in s names (H s (or_introl eq_refl))) as (i & Ei). rewrite Ei. destruct IH as (idx & -> & Hb); [intros s' Hs; apply H; right; exact Hs|]. cbn [bind].
  exists (i :: idx). split; [reflexivity|]. intros j [<-|Hj]; [|auto]. apply str_index_ok in Ei. apply nth_error_Some. congruence.
Qed.
Lemma announce_ok ps l : NoDup (pi_names ps) -> (forall s, In s (pi_names ps) -> lower s = s) -> length (pi_limits ps) = length (pi_names ps) -> length (pi_high ps) = length (pi_names ps) ->
  Forall (con_known (pi_names ps)) l ->
  exists cs, announce l ps = Ok cs /\ (forall s, In s (ec_names cs) -> s <> "all_states" -> In (lower s) (pi_names ps)) /\
    forall c st, In c (ec_constraints cs) -> length st = length (pi_names ps) -> exists v, c st = Ok v.
Proof.
  intros Hn Hlow L1 L2. induction l as [|c l IH]; intros Hl; cbn [announce]; [exists []; split; [reflexivity|]; split; [intros s []|intros c st []]|].
  inversion Hl as [|? ? Hc Hl']; subst. destruct (IH Hl') as (cs & E & K1 & K2). destruct c as [s|ss|ss]; cbn [con_known] in Hc.
  - rewrite E. cbn [bind]. eexists. split; [reflexivity|]. split; [|exact K2]. intros s' [<-|Hs]; [exact Hc|auto].
  - destruct (sc_positions_ok ss _ Hc) as (idx & Ei & Hb).
    assert (exists c, sc_set_modules (sc_new ss) ps = Ok c /\ sc_states c = ss) as (c & Ec & Es).
    { unfold sc_set_modules. cbn [sc_new sc_states]. rewrite Ei. cbn [bind]. destruct (select_ok idx (pi_limits ps)) as (? & -> & _); [intros i Hi; rewrite L1; auto|]. cbn [bind].
      destruct (select_ok idx (pi_high ps)) as (? & -> & _); [intros i Hi; rewrite L2; auto|]. cbn [bind]. eexists. split; reflexivity. }
    rewrite Ec, E. cbn [bind]. eexists. split; [reflexivity|]. split; [exact K1|]. intros c' st [<-|Hc'] Hst; [|auto].
    rewrite <- Es in Ec. destruct (squared_eval ps c st Ec L1 L2 Hst) as (v1 & v2 & v3 & _ & _ & _ & Ev). eauto.
  - destruct (limit_known_accepted (ObsList ss) ps Hn Hlow ltac:(discriminate) Hc) as (c & Ec). rewrite Ec, E. cbn [bind]. eexists. split; [reflexivity|]. split; [exact K1|].
    intros c' st [<-|Hc'] Hst; [|auto]. destruct (limit_semantics _ ps c st Hn Hlow Ec Hst) as (v & Ev & _). eauto.
Qed.
Lemma eval_all_ok n cs : (forall c st, In c cs -> length st = n -> exists v, c st = Ok v) -> forall st, length st = n -> exists vs, eval_all cs st = Ok vs /\ length vs = length cs.
Proof.
  intros H st Hst. induction cs as [|c cs IH]; cbn [eval_all]; [exists []; auto|]. destruct (H c st (or_introl eq_refl) Hst) as (v & ->). cbn [bind].
  destruct IH as (vs & -> & L); [intros c' st' Hc; apply H; right; exact Hc|]. cbn [bind]. eexists. split; [reflexivity|]. cbn. congruence.
Qed.
Lemma max_monitor n cs : (forall c st, In c cs -> length st = n -> exists v, c st = Ok v) -> exists m, cm_new cs MergeMax = Ok m /\ forall st, length st = n -> exists d, check_constraints m st = Ok d.
Proof.
  intros H. unfold cm_new. cbn [py_assert bind]. eexists. split; [reflexivity|]. intros st Hst. unfold check_constraints. cbn [cm_constraints cm_merge].
  destruct (eval_all_ok n cs H st Hst) as (vs & -> & L). cbn [bind]. destruct cs as [|c cs]; [eauto|]. destruct vs as [|v vs]; [discriminate L|]. cbn [Constraint_Model.py_max]. eauto.
Qed.
Lemma monitor_ok ps l : NoDup (pi_names ps) -> (forall s, In s (pi_names ps) -> lower s = s) -> length (pi_limits ps) = length (pi_names ps) -> length (pi_high ps) = length (pi_names ps) ->
  Forall (con_known (pi_names ps)) l ->
  exists cs m, announce l ps = Ok cs /\ env_monitor cs ps = Ok m /\ forall st, length st = length (pi_names ps) -> exists d, check_constraints m st = Ok d.
Proof.
  intros Hn Hlow L1 L2 Hl. destruct (announce_ok ps l Hn Hlow L1 L2 Hl) as (cs & E & K1 & K2). exists cs. unfold env_monitor. destruct (ec_names cs) as [|s ns] eqn:En.
  - destruct (max_monitor (length (pi_names ps)) (ec_constraints cs) K2) as (m & E1 & E2). exists m. auto.
  - destruct (limit_known_accepted (ObsList (s :: ns)) ps Hn Hlow ltac:(discriminate) K1) as (c & Ec). rewrite Ec. cbn [bind].
    destruct (max_monitor (length (pi_names ps)) (ec_constraints cs ++ [lc_call c])) as (m & E1 & E2); [|exists m; auto].
    intros c' st Hc Hst. apply in_app_or in Hc. destruct Hc as [Hc|[<-|[]]]; [auto|]. destruct (limit_semantics _ ps c st Hn Hlow Ec Hst) as (v & Ev & _). eauto.
Qed.

(** ** Reward *)
Lemma weighted_ok : forall w n len st ref, length n = length w -> length len = length w -> length st = length w -> length ref = length w -> exists x, weighted_errors w n len st ref = Ok x.
Proof.
  induction w as [|w0 w IH]; intros [|n0 n] [|l0 len] [|s0 st] [|r0 ref] H1 H2 H3 H4; try discriminate; cbn [weighted_errors]; [eauto|].
  destruct (IH n len st ref) as (x & ->); try (cbn in *; congruence). cbn [bind]. eauto.
Qed.
Lemma reward_ok weights e : NoDup (we_names e) -> length (we_low e) = length (we_names e) -> length (we_high e) = length (we_names e) -> (forall k, In k (dict_keys weights) -> In (lower k) (we_names e)) ->
  exists w, wse_set_modules (new_reward weights) e = Ok w /\ forall st ref d, length st = length (we_names e) -> length ref = length (we_names e) -> exists x, wse_reward w st ref d = Ok x.
Proof.
  intros Hn L1 L2 Hk. unfold wse_set_modules, new_reward, wse_new. cbn [wse_n wse_weights wse_normed wse_gamma wse_bias wse_violation].
  change (set_state_array (InNum 1) (we_names e)) with (Ok (repeat 1 (length (we_names e)))). cbn [bind].
  destruct (set_state_array_dict weights (we_names e) Hn) as [[_ (k & Hi & Hj)]|[_ (w & -> & Lw & _)]]; [exfalso; apply Hj, Hk, Hi|]. cbn [bind].
  unfold default_violation. destruct (reqP (1 - 9 / 10) 0) as [|_]; [lra|]. cbn [bind fst]. eexists. split; [reflexivity|]. intros st ref d Hs Hr. unfold wse_reward. cbn [wse_n wse_weights wse_bias wse_violation wse_length].
  destruct (weighted_ok w (repeat 1 (length (we_names e))) (map2 Rminus (we_high e) (we_low e)) st ref) as (x & ->);
    [rewrite repeat_length; congruence|rewrite map2_length; lia|congruence|congruence|]. cbn [bind]. eauto.
Qed.

(** ** Filter *)
Lemma filter_indices_ok names l : (forall s, In s l -> In s names) -> exists f, filter_indices names l = Ok f /\ length f = length l /\ forall i, In i f -> (i < length names)%nat.
Proof.
  induction l as [|s l IH]; intros H; cbn [filter_indices]; [exists []; split; [reflexivity|split; [reflexivity|intros i []]]|].
  destruct (str_index_in s names (H s (or_introl eq_refl))) as (i & Ei). rewrite Ei. destruct IH as (f & -> & Lf & Hb); [intros s' Hs; apply H; right; exact Hs|]. cbn [bind].
  exists (i :: f). split; [reflexivity|]. split; [cbn; congruence|]. intros j [<-|Hj]; [|auto]. apply str_index_ok in Ei. apply nth_error_Some. congruence.
Qed.

(** ** Configurations that fit together *)
Fixpoint distinctb (l : list string) : bool := match l with [] => true | x :: l' => negb (str_in x l') && distinctb l' end.
Lemma distinct_nodup l : distinctb l = true -> NoDup l.
Proof.
  induction l as [|x l IH]; cbn; intros H; [constructor|]. apply andb_true_iff in H. destruct H as [H1 H2]. constructor; [|auto]. apply negb_true_iff in H1. intros Hx. apply str_in_true in Hx. congruence.
Qed.
Definition all_in (l names : list string) : bool := forallb (fun s => str_in s names) l.
Lemma all_in_spec l names : all_in l names = true -> forall s, In s l -> In s names.
Proof. intros H s Hs. unfold all_in in H. rewrite forallb_forall in H. apply str_in_true. auto. Qed.
Definition nonempty {A} (l : list A) : bool := match l with [] => false | _ => true end.
Definition con_check (names : list string) (c : dconstraint) : bool :=
  let ok s := String.eqb s "all_states" || str_in (lower s) names in
  match c with DName s => ok s | DSquared ss => all_in ss names | DLimit ss => forallb ok ss end.
Definition check (p : preset) : bool :=
  let names := all_names p in let refs := map (fun r => lower (rf_state r)) (ref_list (pr_refs p)) in
  plant_check p && distinctb names && forallb (fun s => String.eqb (lower s) s) names &&
  forallb (fun w => nonempty w && all_in w (motor_states (pr_motor p))) (pr_wrappers p) &&
  nonempty (ref_list (pr_refs p)) && distinctb refs && all_in refs names && forallb (con_check names) (pr_constraints p) &&
  all_in (map lower (dict_keys (pr_weights p))) names.
Lemma con_check_ok names c : con_check names c = true -> con_known names c.
Proof.
  assert (K : forall s, String.eqb s "all_states" || str_in (lower s) names = true -> s <> "all_states" -> In (lower s) names).
  { intros s H Hs. apply orb_true_iff in H. destruct H as [H|H]; [apply String.eqb_eq in H; contradiction|now apply str_in_true]. }
  destruct c as [s|ss|ss]; cbn [con_check con_known]; intros H.
  - now apply K.
  - now apply all_in_spec.
  - intros s Hs. rewrite forallb_forall in H. apply K. auto.
Qed.
Lemma check_fits p : check p = true -> Forall (fun r => 0 < fst (rf_sigma r) /\ 0 < snd (rf_sigma r)) (ref_list (pr_refs p)) -> fits_together p.
Proof.
  intros H Hs. unfold check in H. repeat (apply andb_true_iff in H; destruct H as [H ?]).
  match goal with K1 : all_in (map lower _) _ = true, K2 : forallb (con_check _) _ = true, K3 : all_in _ _ = true, K4 : distinctb _ = true, K5 : nonempty _ = true, K6 : forallb (fun w => nonempty w && _) _ = true,
    K7 : forallb (fun s => String.eqb (lower s) s) _ = true, K8 : distinctb (all_names p) = true |- _ => rename K1 into W1, K2 into W2, K3 into W3, K4 into W4, K5 into W5, K6 into W6, K7 into W7, K8 into W8 end.
  constructor.
  - unfold plant_check. apply andb_true_iff. split; [apply andb_true_iff; split|]; assumption.
  - split; [now apply distinct_nodup|]. intros s Hi. rewrite forallb_forall in W7. apply String.eqb_eq. auto.
  - intros w Hw. rewrite forallb_forall in W6. specialize (W6 w Hw). apply andb_true_iff in W6. destruct W6 as [A1 A2]. split; [destruct w; [discriminate|congruence]|now apply all_in_spec].
  - split; [destruct (ref_list (pr_refs p)); [discriminate|congruence]|]. split; [now apply distinct_nodup|]. apply Forall_forall. intros r Hr. rewrite Forall_forall in Hs.
    split; [|auto]. apply (all_in_spec _ _ W3). apply in_map_iff. exists r. auto.
  - apply Forall_forall. intros c Hc. rewrite forallb_forall in W2. apply con_check_ok. auto.
  - intros k Hk. apply (all_in_spec _ _ W1). now apply in_map.
Qed.
Lemma presets_check : forallb check presets = true.
Proof. vm_compute. reflexivity. Qed.
Lemma presets_sigma : Forall (fun p => Forall (fun r => 0 < fst (rf_sigma r) /\ 0 < snd (rf_sigma r)) (ref_list (pr_refs p))) presets.
Proof. unfold presets. repeat (constructor; [cbn; repeat (constructor; [cbn; lra|]); constructor|]). constructor. Qed.

Lemma nodup_front {A} (l l' : list A) : NoDup (l ++ l') -> NoDup l.
Proof. induction l as [|x l IH]; intros H; [constructor|]. inversion H as [|? ? H1 H2]; subst. constructor; [intros Hx; apply H1, in_or_app; now left|auto]. Qed.

(** ** The whole environment *)
Section Whole.
Context {N : numpy} (HN : numpy_ok N) (p : preset) (d : data) (HF : fits_together p) (HD : data_fits p d).
Lemma info_aligned : aligned (length (motor_states (pr_motor p))) (plant_info p d).
Proof.
  destruct HD as (_ & _ & L1 & L2 & L3 & L4). destruct (ft_names _ HF) as [Hn _].
  assert (Hm : NoDup (motor_states (pr_motor p))) by (eapply nodup_front, Hn).
  unfold aligned, plant_info. cbn [i_names i_pos i_limits i_nominal i_low i_high]. repeat (split; [assumption || reflexivity|]). intros nm j. apply positions_spec. exact Hm.
Qed.

Lemma whole_protocol seqs filter seeds cbs : filter_known p filter ->
  exists pl a, physical_system p d = Some pl /\ assemble (N := N) p seqs filter (pl_machine pl) = Ok a /\ length (as_filter a) = filter_size p filter /\
  exists w1, env_init (modules (pl_k pl) (pl_seed pl) seeds cbs a) (pl_init pl) (as_gen a) (as_reward a) (as_filter a) = (w1, Ok tt) /\
  forall ops, Forall (allowed (act_valid (action_space (pr_conv p)))) ops ->
    protocol (filter_size p filter) (fun o => length o = length (ref_list (pr_refs p))) true (snd (Env_Model.run (modules (pl_k pl) (pl_seed pl) seeds cbs a) ops w1)).
Proof.
  intros Hfil. destruct (physical_system_total p d (ft_plant _ HF) HD) as (pl & Epl & Ei & I0 & I1 & Hinit & HT). exists pl.
  pose proof info_aligned as Ha. rewrite <- Ei in Ha. destruct (ft_names _ HF) as [Hn Hlow]. set (n := length (motor_states (pr_motor p))) in *.
  destruct (wrap_all_total (pl_seed pl) (act_valid (action_space (pr_conv p))) I0 I1 (pr_wrappers p) n (pl_machine pl) Ha HT) as (M & EM & HaM & HTM & HnM).
  { intros w k Hw Hk. rewrite Ei. cbn [plant_info i_names]. now apply (ft_wrappers _ HF w Hw). }
  { intros w Hw. apply (ft_wrappers _ HF w Hw). }
  { rewrite Ei. exact Hn. }
  assert (EN : i_names (m_info M) = all_names p) by (rewrite HnM, Ei; reflexivity).
  destruct HaM as (L1 & L2 & L3 & L4 & L5 & _ & _). set (n' := (n + length (pr_wrappers p))%nat) in *.
  assert (En' : length (all_names p) = n') by (rewrite <- EN; exact L1).
  destruct (ft_refs _ HF) as (R1 & R2 & R3).
  destruct (new_generator_ok (N := N) (psys_of (m_info M)) (pr_refs p) seqs) as (g & g1 & Eg & Eg1 & HG); cbn [psys_of p_names p_nominal p_limits p_low p_high]; rewrite ?EN; try assumption; try congruence.
  cbn [psys_of p_names] in HG. rewrite EN in HG.
  destruct (monitor_ok (constraint_view (m_info M)) (pr_constraints p)) as (cs & mo & Ecs & Emo & Hmo); cbn [constraint_view pi_names pi_limits pi_high]; rewrite ?EN; try assumption; try congruence; [apply (ft_constraints _ HF)|].
  cbn [constraint_view pi_names] in Hmo. rewrite EN in Hmo.
  destruct (reward_ok (pr_weights p) {| we_names := i_names (m_info M); we_low := i_low (m_info M); we_high := i_high (m_info M); we_referenced := g_mask g1 |}) as (rw & Erw & Hrw);
    cbn [we_names we_low we_high]; rewrite ?EN; try assumption; try congruence; [apply (ft_weights _ HF)|].
  cbn [we_names] in Hrw. rewrite EN in Hrw.
  assert (Hfl : exists f, init_filter (all_names p) filter = Ok f /\ length f = filter_size p filter /\ forall i, In i f -> (i < length (all_names p))%nat).
  { unfold init_filter, filter_size. destruct filter as [[|s l]|]; apply filter_indices_ok; auto. intros s0 Hs. eapply Hfil; [reflexivity|exact Hs]. }
  destruct Hfl as (f & Ef & Lf & Hb).
  assert (EA : assemble (N := N) p seqs filter (pl_machine pl) = Ok {| as_machine := M; as_gen := g1; as_monitor := mo; as_reward := rw; as_filter := f |}).
  { unfold assemble. rewrite EM. cbn [bind]. rewrite Eg. cbn [bind]. rewrite Eg1. cbn [bind]. rewrite Ecs. cbn [bind]. rewrite Emo. cbn [bind]. rewrite Erw. cbn [bind]. rewrite EN, Ef. cbn [bind].
    unfold env_space_low, env_space_high. destruct (select_ok f (i_low (m_info M))) as (x1 & -> & _); [intros i Hi; rewrite L4, <- En'; auto|]. cbn [bind].
    destruct (select_ok f (i_high (m_info M))) as (x2 & -> & _); [intros i Hi; rewrite L5, <- En'; auto|]. reflexivity. }
  eexists. split; [exact Epl|]. split; [exact EA|]. cbn [as_gen as_reward as_filter]. split; [exact Lf|].
  set (a := {| as_machine := M; as_gen := g1; as_monitor := mo; as_reward := rw; as_filter := f |}).
  destruct HTM as (T1 & T2 & T3 & T4).
  assert (HC : contract (modules (pl_k pl) (pl_seed pl) seeds cbs a) n' (act_valid (action_space (pr_conv p))) I0 I1
            (gen_inv (all_names p) (length (ref_list (pr_refs p)))) (fun x => gen_inv (all_names p) (length (ref_list (pr_refs p))) x /\ RefGen_Proofs2.ready x) (fun w => w = rw)
            (fun r => length r = n') (fun o => length o = length (ref_list (pr_refs p)))).
  { constructor; cbn [modules ps_reset ps_simulate rg_reset rg_get rg_obs rw_reset rw_reward cm_check seed_all cb_raises a as_machine as_monitor].
    - split; [exact T1|]. intros x [Hx _]. exact Hx.
    - intros s x w z Hs Hx Hw. exists (pl_seed pl z s), (g_reseed (seeds z) [] x), w. split; [reflexivity|]. split; [auto|]. split; [now apply gen_seed|exact Hw].
    - exact T3.
    - intros s x Hs Hv. now apply T4.
    - intros x st Hx Hst. destruct (gen_reset HN (all_names p) _ x Hn Hx) as (x' & r & o & E & G & Rd & Lr & Lo). unfold on_gen. rewrite E. exists x', r, o. cbn [fst snd]. repeat split; auto; try congruence; apply G.
    - intros x st [Hx Rx] Hst. destruct (gen_get (all_names p) _ x Hn Hx Rx) as (x' & r & E & G & Rd & Lr). unfold on_gen. rewrite E. exists x', r. cbn [fst snd]. repeat split; auto; try congruence; apply G.
    - intros x st [Hx Rx] Hst. destruct (gen_obs HN (all_names p) _ x Hn Hx Rx) as (x' & o & E & G & Rd & Lo). unfold on_gen. rewrite E. exists x', o. cbn [fst snd]. repeat split; auto; apply G.
    - intros w st r Hw _ _. exists w. auto.
    - intros w st r k x deg -> Hst Hr. destruct (Hrw st r deg) as (y & Ey); [congruence|congruence|]. exists rw, y. rewrite Ey. auto.
    - intros st Hst. apply Hmo. congruence.
    - reflexivity. }
  rewrite <- Lf. apply (init_protocol _ _ _ _ _ _ _ _ _ _ HC f); [intros i Hi; rewrite <- En'; auto|exact Hinit|exact HG|reflexivity].
Qed.
End Whole.
