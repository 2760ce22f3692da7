(** The dashboard passes every event on to every plot. *)
From Verif Require Import PyBaseFacts Vis_Model Vis_Spec Vis_Proofs Vis_Proofs2 Vis_Proofs3 Vis_Proofs4 Vis_Proofs5.
Local Open Scope list_scope. Local Open Scope R_scope.

Lemma each_ok {P} (f : P -> call P) : forall l l', each_plot f l = (l', Ok tt) -> Forall2 (fun p p' => f p = (p', Ok tt)) l l'.
Proof.
  induction l as [|p l IH]; intros l' H; cbn in H; [injection H as <-; constructor|]. destruct (f p) as [p' [[]|e]] eqn:Ef; [|discriminate].
  destruct (each_plot f l) as [l2 r]. injection H as <- ->. constructor; auto.
Qed.
Lemma all_ok ft fe fs d d' : all_plots ft fe fs d = (d', Ok tt) -> exists t e s, d' = d_with d t e s /\
  Forall2 (fun p p' => ft p = (p', Ok tt)) (d_time d) t /\ Forall2 (fun p p' => fe p = (p', Ok tt)) (d_ep d) e /\ Forall2 (fun p p' => fs p = (p', Ok tt)) (d_step d) s.
Proof.
  unfold all_plots. destruct (each_plot ft (d_time d)) as [t [[]|x]] eqn:E1; [|discriminate]. destruct (each_plot fe (d_ep d)) as [e [[]|x]] eqn:E2; [|discriminate].
  destruct (each_plot fs (d_step d)) as [s q] eqn:E3. intros H. injection H as <- ->. exists t, e, s. auto using each_ok.
Qed.
Lemma keep_id {P} (l l' : list P) : Forall2 (fun p p' => keep p = (p', Ok tt)) l l' -> l' = l.
Proof. intros H. induction H as [|p p' l l' Hp _ IH]; [reflexivity|]. injection Hp as <-. now rewrite IH. Qed.

(** Calls to a list of plots, one after the other. *)
Definition delivered {P} (op : pop -> P -> call P) (cs : list pop) (l l' : list P) : Prop := Forall2 (fun p p' => p_run op cs p = (p', Ok tt)) l l'.
Lemma delivered_nil {P} (op : pop -> P -> call P) l : delivered op [] l l.
Proof. induction l; constructor; auto. Qed.
Lemma delivered_app {P} (op : pop -> P -> call P) a b (l l1 l2 : list P) : delivered op a l l1 -> delivered op b l1 l2 -> delivered op (a ++ b) l l2.
Proof.
  intros H. revert l2. induction H as [|p p' l l' Hp _ IH]; intros l2 H2; inversion H2 as [|? ? ? ? Hq Hl]; subst; constructor; [|now apply IH].
  clear - Hp Hq. revert p Hp. induction a as [|o a IH]; intros p Hp; cbn [app p_run] in *; [injection Hp as <-; exact Hq|].
  unfold andthen in *. destruct (op o p) as [p1 [u|e]]; cbn [fst snd] in *; [now apply IH|discriminate].
Qed.
Lemma delivered_one {P} (op : pop -> P -> call P) o f l l' : (forall p, op o p = f p) -> Forall2 (fun p p' => f p = (p', Ok tt)) l l' -> delivered op [o] l l'.
Proof. intros Ef H. induction H as [|p p' l l' Hp _ IH]; constructor; [|exact IH]. cbn [p_run]. unfold andthen. rewrite Ef, Hp. reflexivity. Qed.

Definition all_delivered (cs : list pop) (d d' : dash) : Prop :=
  delivered t_op cs (d_time d) (d_time d') /\ delivered e_op cs (d_ep d) (d_ep d') /\ delivered s_op cs (d_step d) (d_step d').
Lemma all_delivered_nil d d' : d_time d' = d_time d -> d_ep d' = d_ep d -> d_step d' = d_step d -> all_delivered [] d d'.
Proof. intros H1 H2 H3. unfold all_delivered. rewrite H1, H2, H3. split; [|split]; apply delivered_nil. Qed.
Lemma all_delivered_app a b d d1 d2 : all_delivered a d d1 -> all_delivered b d1 d2 -> all_delivered (a ++ b) d d2.
Proof. intros (A1 & A2 & A3) (B1 & B2 & B3). split; [|split]; eapply delivered_app; eauto. Qed.
Lemma all_delivered_one o ft fe fs d d' : (forall p, t_op o p = ft p) -> (forall p, e_op o p = fe p) -> (forall p, s_op o p = fs p) -> all_plots ft fe fs d = (d', Ok tt) ->
  all_delivered [o] d d' /\ exists t e s, d' = d_with d t e s.
Proof.
  intros Et Ee Es H. apply all_ok in H. destruct H as (t & e & s & -> & H1 & H2 & H3). split; [|eauto]. split; [|split]; cbn [d_with d_time d_ep d_step].
  - now apply (delivered_one t_op o ft).
  - now apply (delivered_one e_op o fe).
  - now apply (delivered_one s_op o fs).
Qed.
Definition plots_no (d : dash) : nat := (length (d_time d) + length (d_ep d) + length (d_step d))%nat.
Lemma delivered_length {P} (op : pop -> P -> call P) cs l l' : delivered op cs l l' -> length l' = length l.
Proof. intros H. induction H; cbn; congruence. Qed.
Lemma all_delivered_no cs d d' : all_delivered cs d d' -> plots_no d' = plots_no d.
Proof. intros (H1 & H2 & H3). unfold plots_no. now rewrite (delivered_length _ _ _ _ H1), (delivered_length _ _ _ _ H2), (delivered_length _ _ _ _ H3). Qed.

Lemma initialize_delivers d d' : plots_no d <> 0%nat -> d_initialize d = (d', Ok tt) ->
  all_delivered [PInit] d d' /\ open_figures d' = true /\ d_interval d' = d_interval d /\ d_k d' = d_k d /\ d_update d' = d_update d.
Proof.
  intros Hn. unfold d_initialize, andthen.
  match goal with |- context [all_plots keep (fun p => done (e_initialize p)) keep ?q] => destruct (all_plots keep (fun p => done (e_initialize p)) keep q) as [d1 [[]|]] eqn:E1 end; cbn [fst snd]; [|discriminate].
  apply all_ok in E1. destruct E1 as (t1 & e1 & s1 & -> & A1 & A2 & A3). apply keep_id in A1. apply keep_id in A3. cbn [d_with d_time d_ep d_step d_interval d_k d_update d_ep_fig d_step_fig d_time_fig] in *. subst t1 s1.
  match goal with |- context [all_plots keep keep s_initialize ?q] => destruct (all_plots keep keep s_initialize q) as [d2 [[]|]] eqn:E2 end; cbn [fst snd]; [|discriminate].
  apply all_ok in E2. destruct E2 as (t2 & e2 & s2 & -> & B1 & B2 & B3). apply keep_id in B1. apply keep_id in B2. cbn [d_with d_time d_ep d_step d_interval d_k d_update d_ep_fig d_step_fig d_time_fig] in *. subst t2 e2.
  intros E3. apply all_ok in E3. destruct E3 as (t3 & e3 & s3 & -> & C1 & C2 & C3). apply keep_id in C2. apply keep_id in C3. cbn [d_with d_time d_ep d_step d_interval d_k d_update d_ep_fig d_step_fig d_time_fig] in *. subst e3 s3.
  split; [|split; [|auto]].
  - split; [|split]; cbn [d_with d_time d_ep d_step].
    + now apply (delivered_one t_op PInit t_initialize).
    + now apply (delivered_one e_op PInit (fun p => done (e_initialize p))).
    + now apply (delivered_one s_op PInit s_initialize).
  - unfold open_figures, plots_no in *. cbn [d_with d_time_fig d_ep_fig d_step_fig].
    destruct (d_time d), (d_ep d), (d_step d); cbn in *; try lia; rewrite ?Bool.orb_true_r, ?Bool.orb_false_r; cbn; rewrite ?Bool.orb_true_r; reflexivity.
Qed.
Lemma render_delivers d d' : plots_no d <> 0%nat -> d_render d = (d', Ok tt) ->
  all_delivered ((if open_figures d then [] else [PInit]) ++ (if d_update d then [PRender] else [])) d d' /\
  open_figures d' = true /\ d_interval d' = d_interval d /\ d_k d' = d_k d /\ d_update d' = false.
Proof.
  intros Hn. unfold d_render. fold (open_figures d). fold (plots_no d). rewrite (proj2 (Nat.eqb_neq (plots_no d) 0) Hn). cbn [negb]. rewrite Bool.andb_true_r. unfold andthen at 1.
  assert (K : forall d1 r, (if negb (open_figures d) then d_initialize d else done d) = (d1, r) -> r = Ok tt ->
    all_delivered (if open_figures d then [] else [PInit]) d d1 /\ open_figures d1 = true /\ d_interval d1 = d_interval d /\ d_k d1 = d_k d /\ d_update d1 = d_update d).
  { intros d1 r H ->. destruct (open_figures d) eqn:Eo; cbn [negb] in H.
    - injection H as <-. split; [|auto]. now apply all_delivered_nil.
    - now apply initialize_delivers. }
  destruct (if negb (open_figures d) then d_initialize d else done d) as [d1 [[]|]]; cbn [fst snd]; [|discriminate].
  destruct (K d1 (Ok tt) eq_refl eq_refl) as (H1 & H2 & H3 & H4 & H5). rewrite <- H5. destruct (d_update d1) eqn:Eu.
  - unfold andthen. destruct (all_plots t_render e_render s_render d1) as [d2 [[]|]] eqn:E2; cbn [fst snd]; [|discriminate]. destruct (negb (d_drawable d2)); [discriminate|].
    intros H. injection H as <-.
    destruct (all_delivered_one PRender t_render e_render s_render d1 d2 ltac:(reflexivity) ltac:(reflexivity) ltac:(reflexivity) E2) as (G1 & t & e & s & ->).
    split; [|unfold open_figures in *; cbn; auto]. eapply all_delivered_app; [exact H1|]. exact G1.
  - intros H. injection H as <-. rewrite app_nil_r. auto.
Qed.
Lemma event_delivers ev d d' : d_event ev d = (d', Ok tt) ->
  all_delivered [PTell ev] d d' /\ open_figures d' = open_figures d /\ d_interval d' = d_interval d /\
  match ev with
  | StepEnd _ _ _ _ _ => d_k d' = (d_k d + 1)%Z /\ d_update d' = (Z.eqb ((d_k d + 1) mod d_interval d) 0 || d_update d)%bool
  | _ => d_k d' = d_k d /\ d_update d' = d_update d
  end.
Proof.
  destruct ev as [| |a|k st rf rw tm]; cbn [d_event]; intros H.
  - destruct (all_delivered_one (PTell ResetBegin) (fun p => done (t_on_reset_begin p)) e_on_reset_begin keep d d' ltac:(reflexivity) ltac:(reflexivity) ltac:(reflexivity) H) as (G1 & t & e & s & ->).
    split; [exact G1|]. unfold open_figures. cbn. auto.
  - injection H as <-. split; [|auto]. split; [|split]; [apply (delivered_one t_op _ keep)|apply (delivered_one e_op _ keep)|apply (delivered_one s_op _ keep)]; try reflexivity.
    all: match goal with |- Forall2 _ ?l _ => induction l; constructor; auto end.
  - destruct (all_delivered_one (PTell (StepBegin a)) (t_on_step_begin a) keep (fun p => done (s_on_step_begin p)) d d' ltac:(reflexivity) ltac:(reflexivity) ltac:(reflexivity) H) as (G1 & t & e & s & ->).
    split; [exact G1|]. unfold open_figures. cbn. auto.
  - unfold andthen in H. match type of H with (match snd ?q with _ => _ end) = _ => destruct q as [d1 [[]|]] eqn:E1 end; cbn [fst snd] in H; [|discriminate].
    destruct (all_delivered_one (PTell (StepEnd k st rf rw tm)) (t_on_step_end st rf rw tm) (fun p => done (e_on_step_end k rw p)) (fun p => done (s_on_step_end tm p)) d d1 ltac:(reflexivity) ltac:(reflexivity) ltac:(reflexivity) E1) as (G1 & t & e & s & ->).
    unfold d_count in H. cbn [d_with d_interval d_k d_time d_ep d_step d_update d_ep_fig d_step_fig d_time_fig] in H. destruct (Z.eqb (d_interval d) 0); [discriminate|]. injection H as <-.
    split; [exact G1|]. unfold open_figures. cbn. split; [reflexivity|]. split; [reflexivity|]. split; [reflexivity|]. destruct (Z.eqb ((d_k d + 1) mod d_interval d) 0); reflexivity.
Qed.
Lemma run_delivers ops : forall d d', plots_no d <> 0%nat -> d_run ops d = (d', Ok tt) ->
  all_delivered (plot_calls (d_interval d) (d_k d) (d_update d) (open_figures d) ops) d d'.
Proof.
  induction ops as [|o ops IH]; intros d d' Hn H; cbn [d_run] in H; [injection H as <-; now apply all_delivered_nil|].
  unfold andthen in H. destruct (d_op o d) as [d1 [[]|]] eqn:E1; cbn [fst snd] in H; [|discriminate].
  destruct o as [ev| | |]; cbn [d_op] in E1.
  - destruct (event_delivers ev d d1 E1) as (G1 & G2 & G3 & G4). specialize (IH d1 d' ltac:(rewrite (all_delivered_no _ _ _ G1); exact Hn) H). rewrite G2, G3 in IH.
    destruct ev as [| |a|k st rf rw tm]; destruct G4 as [G4 G5]; rewrite G4, G5 in IH; exact (all_delivered_app [_] _ _ _ _ G1 IH).
  - destruct (render_delivers d d1 Hn E1) as (G1 & G2 & G3 & G4 & G5). specialize (IH d1 d' ltac:(rewrite (all_delivered_no _ _ _ G1); exact Hn) H). rewrite G2, G3, G4, G5 in IH.
    cbn [plot_calls]. rewrite app_assoc. exact (all_delivered_app _ _ _ _ _ G1 IH).
  - unfold d_reset_figures, andthen in E1. match type of E1 with (match snd ?q with _ => _ end) = _ => destruct q as [d2 [[]|]] eqn:E2 end; cbn [fst snd] in E1; [|discriminate]. injection E1 as <-.
    destruct (all_delivered_one PReset t_reset_data (fun p => done (e_reset_data p)) (fun p => done (s_reset_data p)) d d2 ltac:(reflexivity) ltac:(reflexivity) ltac:(reflexivity) E2) as (G1 & t & e & s & ->).
    match type of H with d_run ops ?q = _ => specialize (IH q d'); assert (Hq : plots_no q = plots_no d) by (exact (all_delivered_no _ _ _ G1)) end.
    specialize (IH ltac:(rewrite Hq; exact Hn) H). exact (all_delivered_app [_] _ _ _ _ G1 IH).
  - match type of E1 with d_render ?q = _ => destruct (render_delivers q d1 Hn E1) as (G1 & G2 & G3 & G4 & G5) end. specialize (IH d1 d' ltac:(rewrite (all_delivered_no _ _ _ G1); exact Hn) H). rewrite G2, G3, G4, G5 in IH.
    cbn [plot_calls]. change (PRender :: plot_calls (d_interval d) (d_k d) false true ops) with ([PRender] ++ plot_calls (d_interval d) (d_k d) false true ops). rewrite app_assoc.
    exact (all_delivered_app _ _ _ _ _ G1 IH).
Qed.

(** ** Histories without [reset_figures] that end with a forced render *)
Definition not_figures (o : vop) : Prop := o <> ResetFigures.
Lemma calls_open N ops : forall k upd, Forall not_figures ops -> exists b, plot_calls N k upd true (ops ++ [Force]) = b ++ [PRender] /\ Forall no_init b /\
  (forall acc, violations_from acc b = violations_from acc (events ops)) /\ (forall acc, steps_from acc b = steps_from acc (events ops)) /\ (forall acc, episodes_from acc b = episodes_from acc (events ops)) /\ (forall k, counted k (events ops) -> counted k b).
Proof.
  induction ops as [|o ops IH]; intros k upd H; [exists []; cbn; repeat split; auto|]. inversion H as [|? ? Ho Hops]; subst. destruct o as [ev| | |]; cbn [app plot_calls events].
  - assert (K : forall k' upd', exists b, PTell ev :: plot_calls N k' upd' true (ops ++ [Force]) = b ++ [PRender] /\ Forall no_init b /\
      (forall acc, violations_from acc b = violations_from acc (PTell ev :: events ops)) /\ (forall acc, steps_from acc b = steps_from acc (PTell ev :: events ops)) /\ (forall acc, episodes_from acc b = episodes_from acc (PTell ev :: events ops)) /\ (forall k, counted k (PTell ev :: events ops) -> counted k b)).
    { intros k' upd'. destruct (IH k' upd' Hops) as (b & -> & F & V & S & E & C). exists (PTell ev :: b). split; [reflexivity|]. split; [constructor; [exact I|exact F]|].
      split; [intros acc; apply V|]. split; [intros acc; apply S|]. split; [intros acc; apply E|]. intros k0. destruct ev; cbn; auto. destruct k0; [|auto]. intros [-> G]. auto. }
    destruct ev; apply K.
  - destruct (IH k false Hops) as (b & -> & F & V & S & E & C). destruct upd; [exists (PRender :: b)|exists b]; repeat split; auto. constructor; [exact I|exact F].
  - contradiction Ho; reflexivity.
  - destruct (IH k false Hops) as (b & -> & F & V & S & E & C). exists (PRender :: b); repeat split; auto. constructor; [exact I|exact F].
Qed.
Lemma calls_closed N ops : forall k upd, Forall not_figures ops -> exists a b, plot_calls N k upd false (ops ++ [Force]) = a ++ PInit :: b ++ [PRender] /\ Forall no_init a /\ Forall no_init b /\
  (forall acc, violations_from acc (a ++ PInit :: b) = violations_from acc (events ops)) /\ (forall acc, steps_from acc (a ++ PInit :: b) = steps_from acc (events ops)) /\ (forall acc, episodes_from acc (a ++ PInit :: b) = episodes_from acc (events ops)) /\ (forall k, counted k (events ops) -> counted k (a ++ PInit :: b)).
Proof.
  induction ops as [|o ops IH]; intros k upd H; [exists [], []; cbn; repeat split; auto|]. inversion H as [|? ? Ho Hops]; subst. destruct o as [ev| | |]; cbn [app plot_calls events].
  - assert (K : forall k' upd', exists a b, PTell ev :: plot_calls N k' upd' false (ops ++ [Force]) = a ++ PInit :: b ++ [PRender] /\ Forall no_init a /\ Forall no_init b /\
      (forall acc, violations_from acc (a ++ PInit :: b) = violations_from acc (PTell ev :: events ops)) /\ (forall acc, steps_from acc (a ++ PInit :: b) = steps_from acc (PTell ev :: events ops)) /\ (forall acc, episodes_from acc (a ++ PInit :: b) = episodes_from acc (PTell ev :: events ops)) /\ (forall k, counted k (PTell ev :: events ops) -> counted k (a ++ PInit :: b))).
    { intros k' upd'. destruct (IH k' upd' Hops) as (a & b & -> & F1 & F2 & V & S & E & C). exists (PTell ev :: a), b. split; [reflexivity|]. split; [constructor; [exact I|exact F1]|]. split; [exact F2|].
      split; [intros acc; apply V|]. split; [intros acc; apply S|]. split; [intros acc; apply E|]. intros k0. destruct ev; cbn; auto. destruct k0; [|auto]. intros [-> G]. auto. }
    destruct ev; apply K.
  - destruct (calls_open N ops k false Hops) as (b & -> & F & V & S & E & C). exists [], (if upd then PRender :: b else b). destruct upd; cbn; repeat split; auto. constructor; [exact I|exact F].
  - contradiction Ho; reflexivity.
  - destruct (calls_open N ops k false Hops) as (b & -> & F & V & S & E & C). exists [], (PRender :: b). cbn; repeat split; auto. constructor; [exact I|exact F].
Qed.
