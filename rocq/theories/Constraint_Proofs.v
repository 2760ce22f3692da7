(** Lemmas about the constraints. *)
From Verif Require Import PyDictFacts Utils_Model Utils_Spec Utils_Proofs Constraint_Model Constraint_Spec.

(** ** Limit constraint *)
Lemma value_for_ones name (d : dict R) :
  (forall kv, In kv d -> snd kv = 1) ->
  (value_for name d = 1 /\ exists k, In k (dict_keys d) /\ lower k = name) \/
  (value_for name d = 0 /\ ~ exists k, In k (dict_keys d) /\ lower k = name).
Proof.
  intros H. unfold value_for.
  assert (forall a, 
    (fold_left (fun acc kv => if String.eqb (lower (fst kv)) name then snd kv else acc) d a = 1 /\
       exists k, In k (dict_keys d) /\ lower k = name) \/
    (fold_left (fun acc kv => if String.eqb (lower (fst kv)) name then snd kv else acc) d a = a /\
       ~ exists k, In k (dict_keys d) /\ lower k = name)) as Hg.
  { induction d as [|[k v] d IH]; intros a; simpl.
    - right. split; auto. intros (x & [] & _).
    - destruct (IH (fun kv h => H kv (or_intror h))
                   (if String.eqb (lower k) name then v else a)) as [(E & x & Hx & Hl)|(E & Hn)].
      + left. split; auto. exists x; auto.
      + destruct (String.eqb_spec (lower k) name) as [<-|Hne].
        * left. split; [|exists k; auto]. rewrite E. apply (H (k, v)). simpl; auto.
        * right. split; auto. intros (x & [<-|Hx] & Hl); [congruence|]. apply Hn; eauto. }
  apply Hg.
Qed.

Lemma fromkeys_keys (ks : list string) (v : R) k :
  In k (dict_keys (dict_fromkeys ks v)) <-> In k ks.
Proof.
  unfold dict_fromkeys. rewrite in_dict_of_pairs, map_map. simpl. rewrite map_id. tauto.
Qed.
Lemma fromkeys_ones (ks : list string) kv : In kv (dict_fromkeys ks 1) -> snd kv = 1.
Proof.
  intros H. destruct kv as [k v].
  assert (dict_get k (dict_fromkeys ks 1) = Some v) as E
    by (apply dict_in_get; [apply dict_of_pairs_nodup|exact H]).
  rewrite dict_get_fromkeys in E. destruct (str_in k ks); simpl; congruence.
Qed.

Lemma mask_select_ok m l : length m = length l -> exists r, mask_select m l = Ok r /\
  forall x, In x r <-> exists i, nth_error m i = Some true /\ nth_error l i = Some x.
Proof.
  revert l; induction m as [|b m IH]; intros [|y l] H; simpl in *; try discriminate.
  - exists []. split; auto. intros x; split; [intros []|]. intros (i & Hi & _). destruct i; discriminate.
  - destruct (IH l ltac:(lia)) as (r & E & Hr). rewrite E; simpl. eexists; split; [reflexivity|].
    intros x. split.
    + destruct b; simpl.
      * intros [<-|Hx]; [exists O; auto|]. apply Hr in Hx as (i & H1 & H2). exists (S i); auto.
      * intros Hx. apply Hr in Hx as (i & H1 & H2). exists (S i); auto.
    + intros ([|i] & H1 & H2); simpl in *.
      * injection H1 as ->. injection H2 as ->. simpl; auto.
      * assert (In x r) by (apply Hr; eauto). destruct b; simpl; auto.
Qed.

Definition obs_list (o : observed) : list string :=
  match o with ObsAllStr => ["all_states"%string] | ObsList l => l | ObsNone => [] end.

Lemma lc_set_modules_spec o ps c :
  NoDup (pi_names ps) -> (forall n, In n (pi_names ps) -> lower n = n) ->
  lc_set_modules (lc_new o) ps = Ok c ->
  exists m, lc_mask c = Some m /\ length m = length (pi_names ps) /\
    forall i name, nth_error (pi_names ps) i = Some name ->
      (nth_error m i = Some true <-> observes (obs_list o) name).
Proof.
  intros Hnd Hlow H. unfold lc_set_modules in H. simpl lc_names in H.
  destruct (lc_resolve o ps) as [ns|] eqn:Er; cbn [bind] in H; [|discriminate].
  destruct (set_state_array_dict (dict_fromkeys ns 1) (pi_names ps) Hnd)
    as [[E _]|[_ (arr & E & Hl & Hn)]]; rewrite E in H; cbn [bind] in H; [discriminate|].
  injection H as <-. simpl. eexists. repeat split; [now rewrite map_length| |].
  - intros Hi. rewrite nth_error_map, (Hn _ _ H) in Hi. simpl in Hi. injection Hi as Hi.
    apply negb_true_iff, req_false in Hi.
    destruct (value_for_ones name (dict_fromkeys ns 1) (fromkeys_ones ns)) as [(_ & k & Hk & Hlk)|(Ez & _)];
      [|congruence].
    apply fromkeys_keys in Hk.
    unfold observes, lc_resolve in *. destruct o as [|l|]; simpl; [auto| |discriminate].
    destruct (str_in "all_states"%string l) eqn:Es.
    + left. now apply str_in_true.
    + injection Er as <-. right. eauto.
  - intros Ho. rewrite nth_error_map, (Hn _ _ H). simpl. f_equal.
    apply negb_true_iff, req_false.
    destruct (value_for_ones name (dict_fromkeys ns 1) (fromkeys_ones ns)) as [(-> & _)|(_ & Hno)]; [lra|].
    exfalso. apply Hno.
    assert (In name (pi_names ps)) as Hin by (eapply nth_error_In; eauto).
    unfold observes, lc_resolve in *. destruct o as [|l|]; simpl in *; [| |discriminate].
    + injection Er as <-. exists name. rewrite fromkeys_keys. auto.
    + destruct (str_in "all_states"%string l) eqn:Es; injection Er as <-.
      * exists name. rewrite fromkeys_keys. auto.
      * destruct Ho as [Ho|(n & Hn1 & Hn2)]; [apply str_in_true in Ho; congruence|].
        exists n. rewrite fromkeys_keys. auto.
Qed.

Lemma existsb_viol l : existsb (fun x => rlt 1 (Rabs x)) l = true <-> exists x, In x l /\ 1 < Rabs x.
Proof.
  rewrite existsb_exists. split; intros (x & H1 & H2); exists x; split; auto; now apply rlt_true.
Qed.

Lemma limit_semantics o ps c state :
  NoDup (pi_names ps) -> (forall n, In n (pi_names ps) -> lower n = n) ->
  lc_set_modules (lc_new o) ps = Ok c -> length state = length (pi_names ps) ->
  exists v, lc_call c state = Ok v /\ (v = 0 \/ v = 1) /\
    (v = 1 <-> exists i name x, nth_error (pi_names ps) i = Some name /\
       observes (obs_list o) name /\ nth_error state i = Some x /\ 1 < Rabs x).
Proof.
  intros Hnd Hlow H Hlen.
  destruct (lc_set_modules_spec o ps c Hnd Hlow H) as (m & Em & Lm & Hm).
  destruct (mask_select_ok m state ltac:(lia)) as (r & Er & Hr).
  unfold lc_call. rewrite Em, Er. cbn [bind].
  assert ((exists x, In x r /\ 1 < Rabs x) <-> exists i name x, nth_error (pi_names ps) i = Some name /\
       observes (obs_list o) name /\ nth_error state i = Some x /\ 1 < Rabs x) as Heq.
  { split.
    - intros (x & Hx & Hv). apply Hr in Hx as (i & H1 & H2).
      destruct (nth_error (pi_names ps) i) as [name|] eqn:En.
      + exists i, name, x. repeat split; auto. now apply (Hm i name En).
      + apply nth_error_None in En. assert (i < length state)%nat by (apply nth_error_Some; congruence). lia.
    - intros (i & name & x & H1 & H2 & H3 & H4). exists x. split; auto. apply Hr.
      exists i. split; auto. now apply (Hm i name H1). }
  destruct (existsb (fun x => rlt 1 (Rabs x)) r) eqn:Ex; eexists; (split; [reflexivity|]); split; auto.
  - split; auto. intros _. apply Heq, existsb_viol, Ex.
  - split; [intros; lra|]. intros Hv. apply Heq, existsb_viol in Hv. congruence.
Qed.

Lemma limit_unknown_refused l ps :
  NoDup (pi_names ps) -> ~ In "all_states"%string l ->
  (exists n, In n l /\ ~ In (lower n) (pi_names ps)) ->
  lc_set_modules (lc_new (ObsList l)) ps = Err AssertionError.
Proof.
  intros Hnd Hna (n & Hn & Hni). unfold lc_set_modules. simpl lc_names. unfold lc_resolve.
  apply str_in_false in Hna. rewrite Hna. cbn [bind].
  destruct (set_state_array_dict (dict_fromkeys l 1) (pi_names ps) Hnd) as [[-> _]|[Hall _]]; [reflexivity|].
  exfalso. apply Hni, Hall, fromkeys_keys, Hn.
Qed.

Lemma limit_known_accepted o ps :
  NoDup (pi_names ps) -> (forall n, In n (pi_names ps) -> lower n = n) -> o <> ObsNone ->
  (forall n, In n (obs_list o) -> n <> "all_states"%string -> In (lower n) (pi_names ps)) ->
  exists c, lc_set_modules (lc_new o) ps = Ok c.
Proof.
  intros Hnd Hlow Ho Hl. unfold lc_set_modules. simpl lc_names.
  assert (exists ns, lc_resolve o ps = Ok ns /\ forall n, In n ns -> In (lower n) (pi_names ps)) as (ns & Er & Hns).
  { destruct o as [|l|]; simpl in *; [| |congruence].
    - exists (pi_names ps). split; auto. intros n Hn. now rewrite Hlow.
    - destruct (str_in "all_states"%string l) eqn:Es.
      + exists (pi_names ps). split; auto. intros n Hn. now rewrite Hlow.
      + exists l. split; auto. intros n Hn. apply Hl; auto. intros ->. apply str_in_false in Es. auto. }
  rewrite Er. cbn [bind].
  destruct (set_state_array_dict (dict_fromkeys ns 1) (pi_names ps) Hnd) as [[_ (k & Hk & Hni)]|[_ (arr & -> & _)]].
  - exfalso. apply Hni, Hns. now apply fromkeys_keys in Hk.
  - cbn [bind]. eauto.
Qed.

(** ** Squared constraint *)
Lemma sc_positions_spec ss names idx :
  sc_positions ss names = Ok idx -> length idx = length ss /\
  forall k s, nth_error ss k = Some s -> exists i, nth_error idx k = Some i /\ nth_error names i = Some s.
Proof.
  revert idx; induction ss as [|s ss IH]; simpl; intros idx H.
  - injection H as <-. split; auto. intros [|k] s; discriminate.
  - destruct (str_index s names) as [i|] eqn:E; [|discriminate].
    destruct (sc_positions ss names) as [r|]; cbn [bind] in H; [|discriminate].
    injection H as <-. destruct (IH r eq_refl) as [Hl Hn]. split; [simpl; auto|].
    intros [|k] s' Hk; simpl in *.
    + injection Hk as <-. exists i. split; auto. now apply str_index_ok.
    + now apply Hn.
Qed.

Lemma select_picks names ss idx v r :
  sc_positions ss names = Ok idx -> select idx v = Ok r -> picks names v ss r.
Proof.
  intros Hp Hs. destruct (sc_positions_spec _ _ _ Hp) as [Hl Hn].
  apply select_inv in Hs as [Hlr Hnr]. split; [lia|].
  intros k s x Hk Hx. destruct (Hn k s Hk) as (i & Hi & Hnm). exists i. split; auto.
  now rewrite <- (Hnr k i Hi).
Qed.

Lemma picks_unique names v ss a b :
  NoDup names -> picks names v ss a -> picks names v ss b -> a = b.
Proof.
  intros Hnd [La Ha] [Lb Hb]. revert ss b La Ha Lb Hb.
  induction a as [|x a IH]; intros ss [|y b] La Ha Lb Hb; destruct ss as [|s ss]; simpl in *; try discriminate; auto.
  f_equal.
  - destruct (Ha O s x eq_refl eq_refl) as (i & H1 & H2).
    destruct (Hb O s y eq_refl eq_refl) as (j & H3 & H4).
    assert (i = j).
    { apply (NoDup_nth_error names); auto; [apply nth_error_Some; congruence|congruence]. }
    congruence.
  - apply (IH ss); auto.
    + intros k s' x' H1 H2. apply (Ha (S k)); auto.
    + intros k s' x' H1 H2. apply (Hb (S k)); auto.
Qed.

Lemma rsum_squares l : rsum (map (fun x => x * x) l) = sum_of_squares l.
Proof. unfold sum_of_squares. induction l as [|x l IH]; cbn [map rsum fold_right]; auto. rewrite IH. ring. Qed.

Lemma all_equal_true a b : length a = length b -> (all_equal a b = true <-> a = b).
Proof.
  revert b; induction a as [|x a IH]; intros [|y b] H; simpl in *; try discriminate; [tauto|].
  rewrite andb_true_iff, req_true, IH by lia. split; [intros [-> ->]|intros E; injection E]; auto.
Qed.

Lemma squared_eval ps c state :
  sc_set_modules (sc_new (sc_states c)) ps = Ok c ->
  length (pi_limits ps) = length (pi_names ps) -> length (pi_high ps) = length (pi_names ps) ->
  length state = length (pi_names ps) ->
  exists vals lims highs,
    picks (pi_names ps) state (sc_states c) vals /\
    picks (pi_names ps) (pi_limits ps) (sc_states c) lims /\
    picks (pi_names ps) (pi_high ps) (sc_states c) highs /\
    sc_call c state = Ok (if rlt 1 (sum_of_squares
       (if all_equal highs lims then map2 Rdiv vals lims else vals)) then 1 else 0).
Proof.
  intros H Hl Hh Hst. unfold sc_set_modules in H. simpl sc_states in H.
  destruct (sc_positions (sc_states c) (pi_names ps)) as [idx|] eqn:Ep; cbn [bind] in H; [|discriminate].
  destruct (select idx (pi_limits ps)) as [lims|] eqn:El; cbn [bind] in H; [|discriminate].
  destruct (select idx (pi_high ps)) as [highs|] eqn:Eh; cbn [bind] in H; [|discriminate].
  injection H as <-. simpl in *.
  destruct (select_ok idx state) as (vals & Ev & _ & _).
  { intros i Hi. rewrite Hst, <- Hl. apply Nat.nle_gt. intros Hge.
    assert (select idx (pi_limits ps) = Err IndexError) by (apply select_err; eauto). congruence. }
  exists vals, lims, highs. repeat split; try (eapply select_picks; eauto).
  unfold sc_call; simpl. rewrite Ev. cbn [bind]. rewrite rsum_squares.
  destruct (all_equal highs lims); reflexivity.
Qed.

Lemma map2_div_one vals ones : length vals = length ones -> (forall x, In x ones -> x = 1) ->
  map2 Rdiv vals ones = vals.
Proof.
  revert ones; induction vals as [|v vals IH]; intros [|o ones] H Ho; simpl in *; try discriminate; auto.
  rewrite (Ho o) by auto. rewrite IH; auto. f_equal. field.
Qed.

(** ** Monitor *)
Lemma py_max_from_spec m l : exists r, py_max_from m l = r /\
  (In r (m :: l)) /\ (forall x, In x (m :: l) -> x <= r).
Proof.
  revert m; induction l as [|x l IH]; intros m; simpl.
  - exists m. repeat split; auto. intros y [<-|[]]; lra.
  - destruct (IH (if rlt m x then x else m)) as (r & -> & Hin & Hmax). exists r. split; auto.
    destruct (rltP m x).
    + split.
      * destruct Hin as [<-|Hin]; auto.
      * intros y [<-|[<-|Hy]]; [|apply Hmax; simpl; auto|apply Hmax; simpl; auto].
        apply Rle_trans with x; [lra|]. apply Hmax; simpl; auto.
    + split.
      * destruct Hin as [<-|Hin]; auto.
      * intros y [<-|[<-|Hy]]; [apply Hmax; simpl; auto| |apply Hmax; simpl; auto].
        apply Rle_trans with m; [lra|]. apply Hmax; simpl; auto.
Qed.

Lemma eval_all_spec cs state vs :
  eval_all cs state = Ok vs -> length vs = length cs /\
  forall v, In v vs <-> exists c, In c cs /\ c state = Ok v.
Proof.
  revert vs; induction cs as [|c cs IH]; simpl; intros vs H.
  - injection H as <-. split; auto. intros v; split; [intros []|intros (c & [] & _)].
  - destruct (c state) as [v|] eqn:Ec; cbn [bind] in H; [|discriminate].
    destruct (eval_all cs state) as [r|]; cbn [bind] in H; [|discriminate].
    injection H as <-. destruct (IH r eq_refl) as [Hl Hr]. split; [simpl; auto|].
    intros x. simpl. rewrite Hr. split.
    + intros [<-|(c' & H1 & H2)]; eauto.
    + intros (c' & [<-|H1] & H2); [left; congruence|right; eauto].
Qed.

Lemma check_max cs m state :
  cm_new cs MergeMax = Ok m ->
  (cs = [] -> check_constraints m state = Ok 0) /\
  (forall d, cs <> [] -> check_constraints m state = Ok d ->
     (exists c, In c cs /\ c state = Ok d) /\
     (forall c v, In c cs -> c state = Ok v -> v <= d)).
Proof.
  intros H. unfold cm_new in H. cbn [py_assert bind] in H. injection H as <-. split.
  - intros ->. reflexivity.
  - intros d Hne. unfold check_constraints. simpl.
    destruct (eval_all cs state) as [vs|] eqn:E; cbn [bind]; [|discriminate].
    destruct (eval_all_spec _ _ _ E) as [Hl Hv].
    destruct cs as [|c cs]; [congruence|]. destruct vs as [|v vs]; [discriminate|].
    simpl. intros Hd. injection Hd as Hd.
    destruct (py_max_from_spec v vs) as (r & Hr & Hin & Hmax). rewrite Hd in Hr. subst r.
    split.
    + apply Hv in Hin. exact Hin.
    + intros c' v' Hc Hv'. apply Hmax. apply Hv. eauto.
Qed.

Lemma check_product cs m state :
  cs <> [] -> cm_new cs MergeProduct = Ok m ->
  (forall c, In c cs -> exists v, c state = Ok v) ->
  check_constraints m state = Err TypeError.
Proof.
  intros Hne H Hall. unfold cm_new in H. cbn [py_assert bind] in H. injection H as <-.
  unfold check_constraints. simpl.
  assert (exists vs, eval_all cs state = Ok vs) as [vs ->].
  { clear Hne. induction cs as [|c cs IH]; simpl; eauto.
    destruct (Hall c (or_introl eq_refl)) as [v ->]. cbn [bind].
    destruct IH as [vs ->]; [intros; apply Hall; simpl; auto|]. cbn [bind]. eauto. }
  cbn [bind]. destruct cs; [congruence|]. reflexivity.
Qed.

Lemma check_callable cs f m state vs :
  cs <> [] -> cm_new cs (MergeCallable f) = Ok m -> eval_all cs state = Ok vs ->
  check_constraints m state = f [VList vs].
Proof.
  intros Hne H E. unfold cm_new in H. cbn [py_assert bind] in H. injection H as <-.
  unfold check_constraints. simpl. rewrite E. cbn [bind]. destruct cs; [congruence|]. reflexivity.
Qed.
