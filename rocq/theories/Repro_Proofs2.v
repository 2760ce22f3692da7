(** Proofs for [Repro_Props]: the physical systems of the table and the wrappers, reference
    generators, solvers. *)
From Verif Require Import PyBaseFacts Conv_Model Conv_Spec Conv_Proofs Conv_Proofs2 Solver_Model Supply_Model Transform_Model Motor_Model Loads_Model PhysSys_Model PhysSys_Proofs2
  Scipy_Model Scipy_Spec Wrap_Model Wrap_Proofs3 RefGen_Model RefGen_Proofs Preset_Model Full_Model Full_Spec Full_Proofs Repro_Spec Repro_Proofs.

(** ** What is written over the old state *)
Lemma nth_error_same {A} (l l' : list A) : (forall j, nth_error l j = nth_error l' j) -> l = l'.
Proof.
  revert l'. induction l as [|x l IH]; intros [|x' l'] H; [reflexivity|discriminate (H 0%nat)|discriminate (H 0%nat)|].
  pose proof (H 0%nat) as H0. injection H0 as <-. f_equal. apply IH. intros j. exact (H (S j)).
Qed.
Lemma put_all_agree idx : forall (P : nat -> Prop) vals a a', length vals = length idx -> length a = length a' -> (forall j, P j -> nth_error a j = nth_error a' j) ->
  forall j, P j \/ In j idx -> nth_error (put_all idx vals a) j = nth_error (put_all idx vals a') j.
Proof.
  induction idx as [|i idx IH]; intros P vals a a' Hv Hl Ha j Hj; destruct vals as [|v vals]; try discriminate Hv; cbn [put_all].
  - destruct Hj as [Hj|[]]. auto.
  - injection Hv as Hv. apply (IH (fun j => P j \/ j = i)); [exact Hv|rewrite !list_set_length; exact Hl| |].
    + intros k Hk. rewrite !list_set_nth_error, Hl. destruct (Nat.eqb_spec i k) as [E|E]; [reflexivity|]. destruct Hk as [Hk|Hk]; [auto|congruence].
    + cbn [In] in Hj. destruct Hj as [Hj|[Hj|Hj]]; [left; left; exact Hj|left; right; congruence|right; exact Hj].
Qed.
Lemma put_agree idx (P : nat -> Prop) vals a a' r r' : length a = length a' -> (forall j, P j -> nth_error a j = nth_error a' j) -> put idx vals a = Ok r -> put idx vals a' = Ok r' ->
  length r = length a /\ length r = length r' /\ forall j, P j \/ In j idx -> nth_error r j = nth_error r' j.
Proof.
  intros Hl Ha E E'. unfold put in E, E'. destruct (forallb _ idx) in E; [|discriminate E]. destruct (forallb _ idx) in E'; [|discriminate E'].
  destruct (Nat.eqb_spec (length vals) (length idx)) as [H|H].
  - injection E as <-. injection E' as <-. rewrite !put_all_length. split; [reflexivity|]. split; [exact Hl|]. now apply put_all_agree.
  - destruct vals as [|v [|v' vals]]; try discriminate E. injection E as <-. injection E' as <-. rewrite !put_all_length. split; [reflexivity|]. split; [exact Hl|].
    apply put_all_agree; [apply repeat_length|exact Hl|exact Ha].
Qed.
Lemma dc_out_same ml mo m k v iv st st' r r' : length st = (ml_n ml + 1 + mo_nc mo + m + k)%nat -> length st' = (ml_n ml + 1 + mo_nc mo + m + k)%nat ->
  dc_out ml mo m k v iv st = Ok r -> dc_out ml mo m k v iv st' = Ok r' -> r = r' /\ length r = (ml_n ml + 1 + mo_nc mo + m + k)%nat.
Proof.
  intros Hl Hl' E E'. unfold dc_out in E, E'. destruct (select (motor_idx ml mo) (iv_y iv)) as [ms|]; cbn [bind] in E, E'; [|discriminate E].
  destruct (mo_torque mo ms) as [tq|]; cbn [bind] in E, E'; [|discriminate E]. unfold load_idx, dc_currents_idx, dc_voltages_idx, dc_usup_idx, dc_torque_idx in E, E'.
  destruct (put (seq 0 (ml_n ml)) (firstn (ml_n ml) (iv_y iv)) st) as [s1|] eqn:E1; cbn [bind] in E; [|discriminate E].
  destruct (put (seq 0 (ml_n ml)) (firstn (ml_n ml) (iv_y iv)) st') as [s1'|] eqn:E1'; cbn [bind] in E'; [|discriminate E'].
  destruct (put_agree _ (fun _ => False) _ _ _ _ _ (eq_trans Hl (eq_sym Hl')) (fun _ (F : False) => match F with end) E1 E1') as (L1 & M1 & A1).
  destruct (put [ml_n ml] [tq] s1) as [s2|] eqn:E2; cbn [bind] in E; [|discriminate E].
  destruct (put [ml_n ml] [tq] s1') as [s2'|] eqn:E2'; cbn [bind] in E'; [|discriminate E'].
  destruct (put_agree _ _ _ _ _ _ _ M1 A1 E2 E2') as (L2 & M2 & A2).
  destruct (select (mo_cidx mo) (skipn (ml_n ml) (iv_y iv))) as [cs|]; cbn [bind] in E, E'; [|discriminate E].
  destruct (put (seq (ml_n ml + 1) (mo_nc mo)) cs s2) as [s3|] eqn:E3; cbn [bind] in E; [|discriminate E].
  destruct (put (seq (ml_n ml + 1) (mo_nc mo)) cs s2') as [s3'|] eqn:E3'; cbn [bind] in E'; [|discriminate E'].
  destruct (put_agree _ _ _ _ _ _ _ M2 A2 E3 E3') as (L3 & M3 & A3).
  destruct (put (seq (ml_n ml + 1 + mo_nc mo) m) (iv_u iv) s3) as [s4|] eqn:E4; cbn [bind] in E; [|discriminate E].
  destruct (put (seq (ml_n ml + 1 + mo_nc mo) m) (iv_u iv) s3') as [s4'|] eqn:E4'; cbn [bind] in E'; [|discriminate E'].
  destruct (put_agree _ _ _ _ _ _ _ M3 A3 E4 E4') as (L4 & M4 & A4).
  destruct (put_agree _ _ _ _ _ _ _ M4 A4 E E') as (L5 & M5 & A5).
  assert (Lr : length r = (ml_n ml + 1 + mo_nc mo + m + k)%nat) by congruence. split; [|exact Lr]. apply nth_error_same. intros j. destruct (Nat.lt_ge_cases j (length r)) as [Hj|Hj].
  - apply A5. rewrite Lr in Hj. rewrite !in_seq. cbn [In]. lia.
  - rewrite (proj2 (nth_error_None r j) Hj). symmetry. apply nth_error_None. congruence.
Qed.

(** ** Plants *)
Record machine_forgets {S} (m : machine S) (valid : action -> Prop) (Inv : S -> Prop) (Pre Rel : S -> S -> Prop) : Prop := {
  mf_reset_inv : forall s s1 o, Inv s -> m_reset m s = (s1, Ok o) -> Inv s1;
  mf_sim_inv : forall a s s1 o, Inv s -> m_sim m a s = (s1, Ok o) -> Inv s1;
  mf_reset : forall s s' s1 s1' o o', Pre s s' -> m_reset m s = (s1, Ok o) -> m_reset m s' = (s1', Ok o') -> o = o' /\ Rel s1 s1';
  mf_sim : forall a s s' s1 s1' o o', valid a -> Rel s s' -> m_sim m a s = (s1, Ok o) -> m_sim m a s' = (s1', Ok o') -> o = o' /\ Rel s1 s1';
  mf_pre : forall s s', Rel s s' -> Pre s s' }.
Record plant_forgets (d : data) (pl : plant) (valid : action -> Prop) (Inv : pl_state pl -> Prop) (Pre Rel : pl_state pl -> pl_state pl -> Prop) : Prop := {
  pf_machine : machine_forgets (pl_machine pl) valid Inv Pre Rel;
  pf_init : Inv (pl_init pl);
  pf_seed_inv : forall z s, Inv s -> Inv (pl_seed pl z s);
  pf_seed : forall z s s', seed_decides d z -> Inv s -> Inv s' -> Pre (pl_seed pl z s) (pl_seed pl z s');
  pf_seed_pre : forall z s s', Pre s s' -> Pre (pl_seed pl z s) (pl_seed pl z s');
  pf_k : forall s s', Rel s s' -> pl_k pl s = pl_k pl s' }.

Section Drive.
Context (p : preset) (d : data) (HS : solver_forgets (d_solver d)) {C : Type} (cv : conv_if C action) (c0 : C) (valid : action -> Prop) (InvC : C -> Prop) (R0 R1 : C -> C -> Prop).
Context (HC : conv_forgets cv valid InvC R0 R1) (H0 : InvC c0).
Lemma make_plant_forgets {U V} (f : rhs U) (view : list R -> res V) cur volt volt_last out obs (PS : list R -> Prop) :
  PS (repeat 0 (length (motor_states (pr_motor p)))) ->
  (forall v iv st r, PS st -> out v iv st = Ok r -> PS r) -> (forall v iv st st' r r', PS st -> PS st' -> out v iv st = Ok r -> out v iv st' = Ok r' -> r = r') ->
  exists Inv Pre Rel, plant_forgets d (make_plant p d c0 f (g_reset cv ideal_if (an_if (d_solver d) U) (limits d) obs)
    (g_simulate cv ideal_if (an_if (d_solver d) U) (pr_tau p) view cur volt volt_last act_id out (limits d))) valid Inv Pre Rel.
Proof.
  intros HP Hout Hsame. set (gi := ginv InvC (pr_supply p) (d_solver d) f PS). set (gr := grel InvC (pr_supply p) (d_solver d) f PS R0).
  exists (fun x => gi (fst x)), (fun x x' => gi (fst x) /\ gi (fst x') /\ snd x = snd x'), (fun x x' => gr (fst x) (fst x') /\ snd x = snd x').
  constructor; [constructor| | | | |]; cbn [make_plant pl_machine m_reset m_sim pl_init pl_seed pl_k].
  - intros [s k] s1 o Hi E. cbn [fst snd] in *. destruct (g_reset _ _ _ _ _ _ s) as [x1 r] eqn:G. injection E as <- ->. cbn [fst]. eapply rst_inv; eassumption.
  - intros a [s k] s1 o Hi E. cbn [fst snd] in *. destruct (g_simulate _ _ _ _ _ _ _ _ _ _ _ a s) as [x1 r] eqn:G. injection E as <- ->. cbn [fst]. eapply sim_inv; eassumption.
  - intros [s k] [s' k'] s1 s1' o o' (Hi & Hi' & Hk) E E'. cbn [fst snd] in *. subst k'.
    destruct (g_reset _ _ _ _ _ _ s) as [x1 r] eqn:G. destruct (g_reset _ _ _ _ _ _ s') as [x1' r'] eqn:G'. injection E as <- ->. injection E' as <- ->. cbn [fst snd].
    destruct (rst_same _ _ _ _ _ HC _ _ f _ _ _ _ s s' x1 x1' o o' Hi Hi' G G') as [A B]. split; [exact A|]. split; [exact B|reflexivity].
  - intros a [s k] [s' k'] s1 s1' o o' Ha [Hr Hk] E E'. cbn [fst snd] in *. subst k'.
    destruct (g_simulate _ _ _ _ _ _ _ _ _ _ _ a s) as [x1 r] eqn:G. destruct (g_simulate _ _ _ _ _ _ _ _ _ _ _ a s') as [x1' r'] eqn:G'. injection E as <- ->. injection E' as <- ->. cbn [fst snd].
    assert (Hact : forall (v : V) a a', valid a -> act_id v a = Ok a' -> valid a') by (intros v b b' Hb Eb; injection Eb as <-; exact Hb).
    destruct (sim_same _ _ _ _ _ HC (pr_supply p) _ f HS _ _ _ _ _ _ _ _ PS Hact Hout Hsame a s s' x1 x1' o o' Ha Hr G G') as [A B]. split; [exact A|]. split; [exact B|reflexivity].
  - intros [s k] [s' k'] [Hr Hk]. cbn [fst snd] in *. split; [apply Hr|]. split; [apply Hr|exact Hk].
  - cbn [fst]. split; [exact H0|]. split; [reflexivity|]. split; [|exact HP]. exists []. split; [constructor|reflexivity].
  - intros z [s k] H. exact H.
  - intros z [s k] [s' k'] Hz Hi Hi'. cbn [fst snd] in *. split; [exact Hi|]. split; [exact Hi'|]. apply Hz.
  - intros z [s k] [s' k'] (Hi & Hi' & Hk). cbn [fst snd] in *. split; [exact Hi|]. split; [exact Hi'|]. congruence.
  - intros [s k] [s' k'] [(_ & _ & _ & _ & _ & Hk) _]. exact Hk.
Qed.
Lemma drive_forgets pl : drive p d cv c0 = Some pl -> exists Inv Pre Rel, plant_forgets d pl valid Inv Pre Rel.
Proof.
  intros E. assert (Hl : ml_n (load p d) = 1%nat) by (unfold load; destruct (pr_load p); reflexivity).
  unfold drive in E. destruct (pr_sys p), (pr_motor p) eqn:Em; try discriminate E; injection E as <-.
  1-4: (unfold dc_plant; eapply (make_plant_forgets _ _ _ _ _ _ _ (fun st => length st = length (motor_states (pr_motor p))));
    [apply repeat_length
    |intros v iv st r Hst Hr; rewrite Em in Hst |- *;
     match type of Hr with dc_out ?ml ?mo ?m ?k _ _ _ = _ => let F := fresh in assert (F : length st = (ml_n ml + 1 + mo_nc mo + m + k)%nat) by (rewrite Hl; exact Hst);
       rewrite (proj2 (dc_out_same ml mo m k v iv st st r r F F Hr Hr)), Hl; reflexivity end
    |intros v iv st st' r r' Hst Hst' Hr Hr'; rewrite Em in Hst, Hst';
     match type of Hr with dc_out ?ml ?mo ?m ?k _ _ _ = _ =>
       refine (proj1 (dc_out_same ml mo m k v iv st st' r r' _ _ Hr Hr')); rewrite Hl; assumption end]).
  all: (eapply (make_plant_forgets _ _ _ _ _ _ _ (fun st => True)); [exact I|auto|]; intros v iv st st' r r' _ _ Hr Hr';
    match type of Hr with ?o v iv st = _ => change (o v iv st') with (o v iv st) in Hr' end; congruence).
Qed.
End Drive.

(** ** The physical systems of the table and the wrappers *)
Lemma machine_forgets_weaken {S} (m : machine S) (valid valid' : action -> Prop) Inv Pre Rel : (forall a, valid' a -> valid a) -> machine_forgets m valid Inv Pre Rel -> machine_forgets m valid' Inv Pre Rel.
Proof. intros H [H1 H2 H3 H4 H5]. constructor; eauto. Qed.
Lemma plant_forgets_weaken d pl (valid valid' : action -> Prop) Inv Pre Rel : (forall a, valid' a -> valid a) -> plant_forgets d pl valid Inv Pre Rel -> plant_forgets d pl valid' Inv Pre Rel.
Proof. intros H [H1 H2 H3 H4 H5 H6]. constructor; eauto using machine_forgets_weaken. Qed.
Lemma fins_start tau l cs : all_some (map new_fin l) = Some cs -> fmInv (1 / 100000) (map fin_space l) (fm_set_tau tau cs).
Proof.
  revert cs. induction l as [|e l IH]; intros cs E; [injection E as <-; constructor|]. cbn [map all_some] in E. destruct (new_fin e) as [c|] eqn:En; [|discriminate E].
  destruct (all_some (map new_fin l)) as [cs'|] eqn:Es; [|discriminate E]. injection E as <-. cbn [map fm_set_tau]. constructor; [|apply IH; reflexivity].
  destruct e; try discriminate En; injection En as <-; (split; [reflexivity|]); cbn; repeat constructor; cbn; reflexivity.
Qed.
Lemma cm_inv_refl cs : cmInv cs cs.
Proof. induction cs; constructor; [reflexivity|assumption]. Qed.
Lemma physical_system_forgets p d pl : solver_forgets (d_solver d) -> physical_system p d = Some pl ->
  exists Inv Pre Rel, plant_forgets d pl (act_valid (action_space (pr_conv p))) Inv Pre Rel.
Proof.
  intros HS E. assert (K : exists valid : action -> Prop, (forall a, act_valid (action_space (pr_conv p)) a -> valid a) /\ exists Inv Pre Rel, plant_forgets d pl valid Inv Pre Rel).
  { unfold physical_system in E. destruct (pr_conv p) as [e|[|] l].
    - destruct e; cbn [new_fin con_of fin_kind_of] in E.
      + eexists. split; [|refine (drive_forgets p d HS _ _ _ _ _ _ (adapt_forgets as_box con_if _ _ _ _ (con_forgets _)) _ pl E); reflexivity]. intros a Ha. destruct (as_box_valid _ _ Ha) as (x & X1 & _). eauto.
      + eexists. split; [|refine (drive_forgets p d HS _ _ _ _ _ _ (adapt_forgets as_box con_if _ _ _ _ (con_forgets _)) _ pl E); reflexivity]. intros a Ha. destruct (as_box_valid _ _ Ha) as (x & X1 & _). eauto.
      + eexists. split; [|refine (drive_forgets p d HS _ _ _ _ _ _ (adapt_forgets as_disc fin_if _ _ _ _ (fin_forgets (1 / 100000) 4)) _ pl E)].
        * intros a Ha. destruct (as_disc_valid _ _ Ha) as (x & X1 & _). eauto.
        * split; [reflexivity|]. cbn. repeat constructor; cbn; reflexivity.
      + eexists. split; [|refine (drive_forgets p d HS _ _ _ _ _ _ (adapt_forgets as_disc fin_if _ _ _ _ (fin_forgets (1 / 100000) 8)) _ pl E)].
        * intros a Ha. destruct (as_disc_valid _ _ Ha) as (x & X1 & _). eauto.
        * split; [reflexivity|]. cbn. repeat constructor; cbn; reflexivity.
    - destruct (all_some (map new_fin l)) as [cs|] eqn:Es; [|discriminate E].
      eexists. split; [|refine (drive_forgets p d HS _ _ _ _ _ _ (adapt_forgets as_multi multi_if _ _ _ _ (fm_forgets (1 / 100000) (map fin_space l))) _ pl E); apply fins_start; exact Es].
      intros a Ha. destruct a as [|xs| |]; try contradiction. exists xs. split; [reflexivity|]. cbn [action_space act_valid] in Ha. symmetry. clear - Ha. induction Ha; cbn; congruence.
    - destruct (all_some (map con_of l)) as [cs|] eqn:Es; [|discriminate E].
      eexists. split; [|refine (drive_forgets p d HS _ _ _ _ _ _ (adapt_forgets as_box cmulti_if _ _ _ _ (cm_forgets _)) _ pl E)].
      + intros a Ha. destruct (as_box_valid _ _ Ha) as (x & X1 & _). eauto.
      + apply cm_inv_refl. }
  destruct K as (valid & Hv & Inv & Pre & Rel & H). exists Inv, Pre, Rel. eapply plant_forgets_weaken; eassumption.
Qed.
Lemma cu_forgets {S} c (m M : machine S) valid Inv Pre Rel : cu_machine c m = Ok M -> machine_forgets m valid Inv Pre Rel -> machine_forgets M valid Inv Pre Rel.
Proof.
  intros E [H1 H2 H3 H4 H5]. unfold cu_machine in E. destruct (cu_info c (m_info m)) as [ii|]; [|discriminate E]. injection E as <-.
  assert (PO : forall (r : call S (list R)) s1 o, post (fun s => s) (add_sum (fst ii)) r = (s1, Ok o) -> exists o1, r = (s1, Ok o1) /\ add_sum (fst ii) o1 = Ok o).
  { intros [s [x|e]] s1 o P; cbn [post bind] in P; [|discriminate P]. injection P as <- P. eauto. }
  constructor; cbn [m_reset m_sim]; [| | | |exact H5].
  - intros s s1 o Hi P. apply PO in P. destruct P as (o1 & P & _). eauto.
  - intros a s s1 o Hi P. apply PO in P. destruct P as (o1 & P & _). eauto.
  - intros s s' s1 s1' o o' Hp P P'. apply PO in P, P'. destruct P as (o1 & P & Q), P' as (o1' & P' & Q'). destruct (H3 _ _ _ _ _ _ Hp P P') as [<- Hr]. split; [congruence|exact Hr].
  - intros a s s' s1 s1' o o' Ha Hp P P'. apply PO in P, P'. destruct P as (o1 & P & Q), P' as (o1' & P' & Q'). destruct (H4 _ _ _ _ _ _ _ Ha Hp P P') as [<- Hr]. split; [congruence|exact Hr].
Qed.
Lemma wrap_forgets {S} valid Inv Pre Rel ws : forall (m M : machine S), wrap_all ws m = Ok M -> machine_forgets m valid Inv Pre Rel -> machine_forgets M valid Inv Pre Rel.
Proof.
  induction ws as [|w ws IH]; intros m M E H; cbn [wrap_all] in E; [congruence|]. destruct (cu_machine _ m) as [m1|] eqn:E1; [|discriminate E]. eapply IH; [exact E|]. eapply cu_forgets; eassumption.
Qed.
