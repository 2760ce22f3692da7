From Verif Require Import PyBase PyBaseFacts PyDict PyDictFacts Utils_Model Transform_Model Motor_Model MotorLimit_Model Init_Model Init_Spec.

Lemma dict_values_nth {V} (d : dict V) : NoDup (dict_keys d) -> forall j,
  nth_error (dict_values d) j = match nth_error (dict_keys d) j with Some k => dict_get k d | None => None end.
Proof.
  induction d as [|[k v] d IH]; intros Hn j; [now destruct j|]. cbn in Hn. inversion Hn as [|? ? Hni Hn']. subst.
  destruct j as [|j]; cbn [dict_values dict_keys map nth_error fst snd dict_get].
  - now rewrite String.eqb_refl.
  - fold (dict_values d). fold (dict_keys d). rewrite (IH Hn' j). destruct (nth_error (dict_keys d) j) as [k'|] eqn:E; [|reflexivity].
    destruct (String.eqb_spec k k') as [->|]; [|reflexivity]. exfalso. apply Hni. now apply nth_error_In in E.
Qed.
Lemma dict_keys_update_order {V} (d u : dict V) : NoDup (dict_keys u) ->
  dict_keys (dict_update d u) = dict_keys d ++ filter (fun k => negb (str_in k (dict_keys d))) (dict_keys u).
Proof.
  revert d. induction u as [|[k v] u IH]; intros d Hn.
  - cbn. now rewrite app_nil_r.
  - cbn in Hn. inversion Hn as [|? ? Hni Hn']. subst. change (dict_update d ((k, v) :: u)) with (dict_update (dict_set k v d) u). rewrite (IH _ Hn').
    rewrite dict_keys_set. change (dict_keys ((k, v) :: u)) with (k :: dict_keys u). cbn [filter]. unfold dict_mem.
    destruct (dict_get k d) as [w|] eqn:E.
    + assert (S : str_in k (dict_keys d) = true) by (apply str_in_true; eapply dict_get_key; eassumption).
      rewrite S. reflexivity.
    + assert (S : str_in k (dict_keys d) = false) by (apply str_in_false, dict_get_none, E). rewrite S. cbn [negb].
      rewrite <- app_assoc. cbn [app]. do 2 f_equal. apply filter_ext_in. intros x Hx. f_equal. unfold str_in. rewrite existsb_app. cbn [existsb].
      rewrite orb_false_r. destruct (String.eqb_spec x k) as [->|]; [contradiction|]. now rewrite orb_false_r.
Qed.

Lemma nodup_app {A} (l m : list A) : NoDup l -> NoDup m -> (forall x, In x l -> ~ In x m) -> NoDup (l ++ m).
Proof.
  induction l as [|a l IH]; intros Hl Hm Hd; [exact Hm|]. inversion Hl as [|? ? Hni Hl']. subst. cbn. constructor.
  - intros H. apply in_app_or in H. destruct H as [H|H]; [contradiction|]. apply (Hd a); [now left|exact H].
  - apply IH; auto. intros x Hx. apply Hd. now right.
Qed.
Lemma order_nodup u d : NoDup u -> NoDup d -> NoDup (init_order u d).
Proof.
  intros Hu Hd. unfold init_order. apply nodup_app; auto.
  - now apply NoDup_filter.
  - intros x H1 H2. apply filter_In in H2. destruct H2 as [_ H2]. apply str_in_true in H1. now rewrite H1 in H2.
Qed.
Lemma in_order k u d : In k (init_order u d) <-> In k u \/ In k d.
Proof.
  unfold init_order. rewrite in_app_iff, filter_In. destruct (str_in k u) eqn:E.
  - apply str_in_true in E. cbn. intuition.
  - cbn. intuition.
Qed.
Lemma filter_none {A} (f : A -> bool) l : (forall x, In x l -> f x = false) -> filter f l = [].
Proof. induction l as [|a l IH]; intros H; [reflexivity|]. cbn. rewrite H by now left. apply IH. intros x Hx. apply H. now right. Qed.

(** The dictionary [initialize] works on, for a user dictionary and an internal one that
    occurs. *)
Definition started (user default st : dict R) : dict R := dict_update (dict_update st default) user.
Lemma started_keys user default st : NoDup (dict_keys user) -> NoDup (dict_keys default) -> init_reachable user default st ->
  dict_keys (started user default st) = init_order (dict_keys user) (dict_keys default).
Proof.
  intros Hu Hd [Hn Hk]. unfold started. rewrite dict_keys_update_sub.
  - rewrite dict_keys_update_order by exact Hd. destruct Hk as [->| ->]; [reflexivity|].
    rewrite filter_none; [now rewrite app_nil_r|]. intros x Hx.
    assert (S : str_in x (init_order (dict_keys user) (dict_keys default)) = true) by (apply str_in_true, in_order; now right).
    now rewrite S.
  - intros k Hin. apply in_dict_keys_update. right. destruct Hk as [->| ->]; [exact Hin|]. apply in_order. now left.
Qed.
Lemma started_get user default st k : NoDup (dict_keys user) -> NoDup (dict_keys default) -> init_reachable user default st ->
  dict_get k (started user default st) = asked user default k.
Proof.
  intros Hu Hd [Hn Hk]. unfold started, asked. rewrite !dict_get_update by assumption.
  destruct (dict_get k user) as [v|] eqn:E1; [reflexivity|]. destruct (dict_get k default) as [v|] eqn:E2; [reflexivity|].
  apply dict_get_none. apply dict_get_none in E1, E2. destruct Hk as [->| ->]; [exact E1|]. rewrite in_order. tauto.
Qed.
Lemma started_reachable user default st : NoDup (dict_keys user) -> NoDup (dict_keys default) -> init_reachable user default st ->
  init_reachable user default (started user default st).
Proof.
  intros Hu Hd H. pose proof (started_keys user default st Hu Hd H) as K. split; [|now right].
  rewrite K. now apply order_nodup.
Qed.
Lemma fresh_reachable i user default : in_states i = Some user -> NoDup (dict_keys user) -> init_reachable user default (initial_states_new i).
Proof.
  intros E Hu. unfold initial_states_new. rewrite E. rewrite <- (app_nil_l (dict_keys user)) at 1 || idtac. split.
  - apply dict_update_nodup. constructor.
  - left. rewrite dict_keys_update_order by exact Hu. cbn [dict_keys map app].
    induction (dict_keys user) as [|k l IH]; [reflexivity|]. cbn. f_equal. apply IH. now inversion Hu.
Qed.

Lemma items_spec names d up : items names d = Ok up ->
  length up = length names /\ forall j k, nth_error names j = Some k -> nth_error up j = dict_get k d /\ dict_get k d <> None.
Proof.
  revert up. induction names as [|n names IH]; intros up E; cbn in E.
  - injection E. intros <-. split; [reflexivity|]. intros [|j] k H; discriminate.
  - unfold dict_item in E. destruct (dict_get n d) as [v|] eqn:Ev; [|discriminate]. cbn [bind] in E.
    destruct (items names d) as [vs|] eqn:Es; [|discriminate]. cbn [bind] in E. injection E. intros <-.
    destruct (IH vs eq_refl) as [L K]. split; [cbn; congruence|]. intros [|j] k H; cbn in *.
    + injection H. intros <-. split; congruence.
    + now apply K.
Qed.
Lemma items_ok names (d : dict R) : (forall k, In k names -> dict_get k d <> None) -> exists up, items names d = Ok up.
Proof.
  induction names as [|n names IH]; intros H; [eexists; reflexivity|]. cbn. unfold dict_item.
  destruct (dict_get n d) as [v|] eqn:E; [|exfalso; apply (H n); [now left|exact E]]. cbn [bind].
  destruct IH as [up ->]; [intros k Hk; apply H; now right|]. eexists. reflexivity.
Qed.
Lemma positions_spec names (d : dict nat) idx : positions names d = Ok idx ->
  length idx = length names /\ forall j k, nth_error names j = Some k -> nth_error idx j = dict_get k d /\ dict_get k d <> None.
Proof.
  revert idx. induction names as [|n names IH]; intros idx E; cbn in E.
  - injection E. intros <-. split; [reflexivity|]. intros [|j] k H; discriminate.
  - unfold dict_item in E. destruct (dict_get n d) as [v|] eqn:Ev; [|discriminate]. cbn [bind] in E.
    destruct (positions names d) as [vs|] eqn:Es; [|discriminate]. cbn [bind] in E. injection E. intros <-.
    destruct (IH vs eq_refl) as [L K]. split; [cbn; congruence|]. intros [|j] k H; cbn in *.
    + injection H. intros <-. split; congruence.
    + now apply K.
Qed.

Lemma nth_error_repeat' {A} (p : A) n j : (j < n)%nat -> nth_error (repeat p n) j = Some p.
Proof. revert j. induction n as [|n IH]; intros j H; [lia|]. destruct j; [reflexivity|]. cbn. apply IH. lia. Qed.
Lemma all_le_spec a b : length a = length b -> (all_le a b = true <-> forall j x y, nth_error a j = Some x -> nth_error b j = Some y -> x <= y).
Proof.
  revert b. induction a as [|x a IH]; intros [|y b] L; try discriminate; cbn.
  - split; [intros _ [|j] u v H; discriminate|reflexivity].
  - injection L. intros L'. rewrite andb_true_iff, (IH b L'). split.
    + intros [H1 H2] [|j] u v Hu Hv; cbn in *.
      * injection Hu. injection Hv. intros -> ->. destruct (rleP u v); [assumption|discriminate].
      * eapply H2; eassumption.
    + intros H. split.
      * destruct (rleP x y) as [|C]; [reflexivity|]. exfalso. specialize (H 0%nat x y eq_refl eq_refl). lra.
      * intros j u v. apply (H (S j)).
Qed.
Lemma clip_spec iv lo up r : length lo = length up -> clip_bounds iv (lo, up) = Ok r ->
  length (fst r) = length lo /\ length (snd r) = length up /\
  forall j a b, nth_error lo j = Some a -> nth_error up j = Some b ->
    nth_error (fst r) j = Some (match interval_at iv j with Some p => Rmax a (fst p) | None => a end) /\
    nth_error (snd r) j = Some (match interval_at iv j with Some p => Rmin b (snd p) | None => b end).
Proof.
  intros L E. unfold clip_bounds in E. destruct iv as [l|].
  2:{ injection E. intros <-. cbn. auto. }
  cbn [fst snd] in E. set (l' := match l with [p] => repeat p (length lo) | _ => l end) in E.
  destruct (Nat.eqb_spec (length l') (length lo)) as [Hl|]; [|discriminate]. injection E. intros <-. cbn [fst snd].
  rewrite !map2_length, Hl. split; [lia|]. split; [lia|]. intros j a b Ha Hb.
  assert (Hj : (j < length lo)%nat) by (apply nth_error_Some; congruence).
  assert (Hi : nth_error l' j = interval_at (Some l) j).
  { subst l'. unfold interval_at. destruct l as [|p [|p2 l]]; [reflexivity| |reflexivity]. now apply nth_error_repeat'. }
  assert (Hs : nth_error l' j <> None) by (apply nth_error_Some; lia).
  rewrite !map2_nth_error, Ha, Hb, Hi in *. destruct (interval_at (Some l) j) as [p|]; [|congruence]. auto.
Qed.
Lemma clip_ok iv lo up : length lo = length up -> match iv with None => True | Some l => length l = 1%nat \/ length l = length lo end ->
  exists r, clip_bounds iv (lo, up) = Ok r.
Proof.
  intros L H. unfold clip_bounds. destruct iv as [l|]; [|eexists; reflexivity]. cbn [fst snd].
  destruct (Nat.eqb_spec (length (match l with [p] => repeat p (length lo) | _ => l end)) (length lo)) as [|C]; [eexists; reflexivity|].
  exfalso. destruct l as [|p [|q l]]; cbn in *; try (rewrite repeat_length in C); destruct H; congruence.
Qed.
Lemma plain_bounds_spec e names r : plain_bounds e names = Ok r ->
  length (fst r) = length names /\ length (snd r) = length names /\
  forall j k, nth_error names j = Some k -> exists nom p l, dict_get k (ie_nominal e) = Some nom /\ dict_get k (ie_positions e) = Some p /\
    nth_error (ie_low e) p = Some l /\ nth_error (fst r) j = Some (nom * l) /\ nth_error (snd r) j = Some nom.
Proof.
  unfold plain_bounds. intros E. destruct (items names (ie_nominal e)) as [up|] eqn:Eu; [|discriminate]. cbn [bind] in E.
  destruct (positions names (ie_positions e)) as [idx|] eqn:Ei; [|discriminate]. cbn [bind] in E.
  destruct (select idx (ie_low e)) as [low|] eqn:El; [|discriminate]. cbn [bind] in E. injection E. intros <-. cbn [fst snd].
  destruct (items_spec _ _ _ Eu) as [Lu Ku]. destruct (positions_spec _ _ _ Ei) as [Li Ki].
  destruct (select_inv _ _ _ El) as [Ll Kl].
  rewrite map2_length. split; [lia|]. split; [exact Lu|]. intros j k Hk.
  destruct (Ku j k Hk) as [U1 U2]. destruct (Ki j k Hk) as [I1 I2].
  destruct (dict_get k (ie_nominal e)) as [nom|] eqn:En; [|congruence]. destruct (dict_get k (ie_positions e)) as [p|] eqn:Ep; [|congruence].
  assert (Hl : nth_error low j = nth_error (ie_low e) p) by (now apply Kl).
  assert (Hlj : nth_error low j <> None). { apply nth_error_Some. assert (j < length names)%nat by (apply nth_error_Some; congruence). lia. }
  destruct (nth_error low j) as [l|] eqn:Elj; [|congruence]. exists nom, p, l.
  rewrite map2_nth_error, U1, Elj. auto.
Qed.
Lemma box_spec e iv names lo up :
  (do b0 <- plain_bounds e names; clip_bounds iv b0) = Ok (lo, up) ->
  length lo = length names /\ length up = length names /\
  forall j k, nth_error names j = Some k -> exists a b, nth_error lo j = Some a /\ nth_error up j = Some b /\ state_box e iv j k a b.
Proof.
  intros E. destruct (plain_bounds e names) as [[lo0 up0]|] eqn:Eb; [|discriminate]. cbn [bind] in E.
  destruct (plain_bounds_spec _ _ _ Eb) as (L1 & L2 & K). cbn [fst snd] in *.
  destruct (clip_spec iv lo0 up0 (lo, up) ltac:(lia) E) as (C1 & C2 & C3). cbn [fst snd] in *.
  split; [lia|]. split; [lia|]. intros j k Hk. destruct (K j k Hk) as (nom & p & l & N & P & L & A & B).
  destruct (C3 j _ _ A B) as [X Y]. eexists. eexists. split; [exact X|]. split; [exact Y|].
  exists nom, p, l. split; [exact N|]. split; [exact P|]. split; [exact L|].
  destruct (interval_at iv j) as [[a b]|]; auto.
Qed.
Lemma box_ok e iv names : init_known e iv names -> exists lo up, (do b0 <- plain_bounds e names; clip_bounds iv b0) = Ok (lo, up).
Proof.
  intros [H Hi].
  destruct (items_ok names (ie_nominal e)) as [u0 Eu].
  { intros k Hk. destruct (H k Hk) as (nom & p & l & N & _). congruence. }
  assert (X : forall ns, (forall k, In k ns -> In k names) -> exists idx, positions ns (ie_positions e) = Ok idx /\ forall x, In x idx -> (x < length (ie_low e))%nat).
  { induction ns as [|n ns IH]; intros Hs.
    - exists []. split; [reflexivity|]. contradiction.
    - destruct IH as (idx & Ei & Hx). { intros k Hk. apply Hs. now right. }
      destruct (H n (Hs n (or_introl eq_refl))) as (nom & p & l & _ & P & L).
      exists (p :: idx). cbn. unfold dict_item. rewrite P. cbn [bind]. rewrite Ei. split; [reflexivity|].
      intros x [<-|Hxx]; [apply nth_error_Some; congruence|auto]. }
  destruct (X names ltac:(auto)) as (idx & Ei & Hx). destruct (select_ok idx (ie_low e) Hx) as (low & El & Ll & _).
  unfold plain_bounds. rewrite Eu. cbn [bind]. rewrite Ei. cbn [bind]. rewrite El. cbn [bind].
  pose proof (proj1 (items_spec _ _ _ Eu)) as Lu. pose proof (proj1 (positions_spec _ _ _ Ei)) as Li.
  assert (Lm : length (map2 Rmult u0 low) = length u0) by (rewrite map2_length; lia).
  destruct (clip_ok iv (map2 Rmult u0 low) u0 Lm) as [[lo up] Ec].
  { destruct iv as [l|]; [|exact I]. rewrite Lm, Lu. exact Hi. }
  exists lo, up. exact Ec.
Qed.

Lemma initialize_plain i e tn pool us st user :
  in_states i = Some user -> NoDup (dict_keys user) -> NoDup (dict_keys (ie_default e)) -> init_reachable user (ie_default e) st ->
  has_flux (init_order (dict_keys user) (dict_keys (ie_default e))) = false ->
  initialize i e tn pool us st =
  (do b <- (do b0 <- plain_bounds e (init_order (dict_keys user) (dict_keys (ie_default e))); clip_bounds (in_interval i) b0);
   let (lo, up) := b in
   let st2 := started user (ie_default e) st in let names := dict_keys st2 in
  match in_random i with
  | Some Uniform => Ok (dict_update st2 (combine names (map2 Rplus (map2 Rmult (map2 Rminus up lo) (us (length names))) lo)))
  | Some Normal =>
      let mue := gauss_mue (fst (in_params i)) lo up in
      let sigma := or_num (snd (in_params i)) 1 in
      do v <- tn (map2 (fun l m => (l - m) / sigma) lo mue) (map2 (fun u m => (u - m) / sigma) up mue) mue sigma pool;
      Ok (dict_update st2 (combine names v))
  | Some OtherDist => Err NotImplementedError
  | None => if all_le lo (dict_values st2) && all_le (dict_values st2) up then Ok st2 else Err PlainException
  end).
Proof.
  intros E Hu Hd Hr Hf. unfold initialize. rewrite E. fold (started user (ie_default e) st).
  rewrite (started_keys _ _ _ Hu Hd Hr). rewrite Hf. destruct (plain_bounds e _) as [b0|]; reflexivity.
Qed.

Lemma combine_keys {V} (ks : list string) (vs : list V) : length vs = length ks -> dict_keys (combine ks vs) = ks.
Proof. revert vs. induction ks as [|k ks IH]; intros [|v vs] H; try discriminate; [reflexivity|]. cbn. f_equal. apply IH. now injection H. Qed.
Lemma combine_get {V} (ks : list string) (vs : list V) j k : NoDup ks -> length vs = length ks -> nth_error ks j = Some k ->
  dict_get k (combine ks vs) = nth_error vs j.
Proof.
  revert vs j. induction ks as [|k0 ks IH]; intros vs j Hn L Hj; [destruct j; discriminate|].
  destruct vs as [|v vs]; [discriminate|]. cbn [combine dict_get]. inversion Hn as [|? ? Hni Hn']. subst. destruct j as [|j]; cbn in Hj.
  - injection Hj. intros ->. now rewrite String.eqb_refl.
  - destruct (String.eqb_spec k0 k) as [->|]; [exfalso; apply Hni; eapply nth_error_In; eassumption|]. cbn. apply IH; auto.
Qed.
Lemma nth_error_ext' {A} (l m : list A) : (forall j, nth_error l j = nth_error m j) -> l = m.
Proof.
  revert m. induction l as [|a l IH]; intros [|b m] H; [reflexivity|specialize (H 0%nat); discriminate|specialize (H 0%nat); discriminate|].
  f_equal; [specialize (H 0%nat); now injection H|]. apply IH. intros j. exact (H (S j)).
Qed.
Lemma overwrite_values (d : dict R) vs : NoDup (dict_keys d) -> length vs = length (dict_keys d) ->
  dict_keys (dict_update d (combine (dict_keys d) vs)) = dict_keys d /\ dict_values (dict_update d (combine (dict_keys d) vs)) = vs.
Proof.
  intros Hn L. assert (K : dict_keys (dict_update d (combine (dict_keys d) vs)) = dict_keys d).
  { rewrite dict_keys_update_sub; [reflexivity|]. intros k. now rewrite combine_keys by exact L. }
  split; [exact K|]. apply nth_error_ext'. intros j. rewrite dict_values_nth by (rewrite K; exact Hn). rewrite K.
  destruct (nth_error (dict_keys d) j) as [k|] eqn:E.
  - rewrite dict_get_update by (rewrite combine_keys by exact L; exact Hn).
    rewrite (combine_get _ _ j k Hn L E). destruct (nth_error vs j) eqn:Ev; [reflexivity|].
    exfalso. apply nth_error_None in Ev. assert (j < length (dict_keys d))%nat by (apply nth_error_Some; congruence). lia.
  - symmetry. apply nth_error_None. apply nth_error_None in E. lia.
Qed.

Lemma reset_states i e n tn pool us st user : in_states i = Some user -> user <> [] ->
  motor_reset i e n tn pool us st = (do st' <- initialize i e tn pool us st; Ok (st', dict_values st')).
Proof. intros E Hne. unfold motor_reset. rewrite E. destruct user; [congruence|reflexivity]. Qed.

Section Plain.
Context (i : initializer) (e : init_env) (user : dict R).
Context (Es : in_states i = Some user) (Hne : user <> []) (Hu : NoDup (dict_keys user)) (Hd : NoDup (dict_keys (ie_default e))).
Let order := init_order (dict_keys user) (dict_keys (ie_default e)).

Lemma const_reset n tn pool us st : init_reachable user (ie_default e) st -> in_random i = None -> has_flux order = false ->
  init_known e (in_interval i) order ->
  let ok := forall j k lo up v, nth_error order j = Some k -> state_box e (in_interval i) j k lo up -> asked user (ie_default e) k = Some v -> lo <= v <= up in
  (ok -> exists st' v, motor_reset i e n tn pool us st = Ok (st', v) /\ init_reachable user (ie_default e) st' /\ delivered order v user (ie_default e)) /\
  (~ ok -> motor_reset i e n tn pool us st = Err PlainException).
Proof.
  intros Hr Hrand Hf Hk ok. rewrite (reset_states _ _ _ _ _ _ _ _ Es Hne). rewrite (initialize_plain _ _ _ _ _ _ _ Es Hu Hd Hr Hf).
  fold order. destruct (box_ok _ _ _ Hk) as (lo & up & Eb). rewrite Eb. cbn [bind]. cbv zeta. rewrite Hrand.
  destruct (box_spec _ _ _ _ _ Eb) as (L1 & L2 & K).
  pose proof (started_keys _ _ _ Hu Hd Hr) as SK. fold order in SK.
  pose proof (started_reachable _ _ _ Hu Hd Hr) as SR.
  set (st2 := started user (ie_default e) st) in *.
  assert (Ln : length (dict_values st2) = length order). { rewrite <- SK. unfold dict_values, dict_keys. now rewrite !map_length. }
  assert (VN : forall j k, nth_error order j = Some k -> nth_error (dict_values st2) j = asked user (ie_default e) k).
  { intros j k Hj. rewrite dict_values_nth by apply SR. rewrite SK, Hj. now apply started_get. }
  assert (box_fun : forall j k a b a' b', state_box e (in_interval i) j k a b -> state_box e (in_interval i) j k a' b' -> a = a' /\ b = b').
  { intros j k a b a' b' (x1 & x2 & x3 & A1 & A2 & A3 & A4) (y1 & y2 & y3 & B1 & B2 & B3 & B4).
    rewrite B1 in A1. injection A1 as <-. rewrite B2 in A2. injection A2 as <-. rewrite B3 in A3. injection A3 as <-.
    destruct (interval_at (in_interval i) j) as [[p q]|]; destruct A4, B4; split; congruence. }
  assert (OK : ok <-> all_le lo (dict_values st2) && all_le (dict_values st2) up = true).
  { rewrite andb_true_iff, (all_le_spec lo (dict_values st2)), (all_le_spec (dict_values st2) up) by lia. split.
    - intros H. split; intros j x y Hx Hy.
      + destruct (nth_error order j) as [k|] eqn:Ek.
        2:{ apply nth_error_None in Ek. assert (nth_error lo j <> None) by congruence. apply nth_error_Some in H0. lia. }
        destruct (K j k Ek) as (a & b & Ea & Eb' & Hb). specialize (VN j k Ek). rewrite Ea in Hx. injection Hx as <-.
        apply (H j k a b y Ek Hb). congruence.
      + destruct (nth_error order j) as [k|] eqn:Ek.
        2:{ apply nth_error_None in Ek. assert (nth_error up j <> None) by congruence. apply nth_error_Some in H0. lia. }
        destruct (K j k Ek) as (a & b & Ea & Eb' & Hb). specialize (VN j k Ek). rewrite Eb' in Hy. injection Hy as <-.
        apply (H j k a b x Ek Hb). congruence.
    - intros [H1 H2] j k a b v Ek Hb Hv. destruct (K j k Ek) as (a' & b' & Ea & Eb' & Hb').
      destruct (box_fun _ _ _ _ _ _ Hb Hb') as [-> ->]. specialize (VN j k Ek). rewrite Hv in VN.
      split; [eapply H1; eassumption|eapply H2; eassumption]. }
  split; intros H.
  - rewrite (proj1 OK H). cbn [bind]. exists st2, (dict_values st2). split; [reflexivity|]. split; [exact SR|]. split; [exact Ln|exact VN].
  - destruct (all_le lo (dict_values st2) && all_le (dict_values st2) up) eqn:Ea; [|reflexivity]. exfalso. apply H, OK. reflexivity.
Qed.

Lemma uniform_reset n tn pool us st : init_reachable user (ie_default e) st -> in_random i = Some Uniform -> has_flux order = false ->
  init_known e (in_interval i) order -> unit_draws us ->
  exists st' v, motor_reset i e n tn pool us st = Ok (st', v) /\ init_reachable user (ie_default e) st' /\ length v = length order /\
    forall j k, nth_error order j = Some k -> exists lo up u, state_box e (in_interval i) j k lo up /\ nth_error (us (length order)) j = Some u /\
      nth_error v j = Some ((up - lo) * u + lo).
Proof.
  intros Hr Hrand Hf Hk Hus. rewrite (reset_states _ _ _ _ _ _ _ _ Es Hne). rewrite (initialize_plain _ _ _ _ _ _ _ Es Hu Hd Hr Hf).
  fold order. destruct (box_ok _ _ _ Hk) as (lo & up & Eb). rewrite Eb. cbn [bind]. cbv zeta. rewrite Hrand. cbn [bind].
  destruct (box_spec _ _ _ _ _ Eb) as (L1 & L2 & K).
  pose proof (started_keys _ _ _ Hu Hd Hr) as SK. fold order in SK.
  pose proof (started_reachable _ _ _ Hu Hd Hr) as SR.
  set (st2 := started user (ie_default e) st) in *. destruct (Hus (length order)) as [Lu _].
  set (v := map2 Rplus (map2 Rmult (map2 Rminus up lo) (us (length (dict_keys st2)))) lo).
  assert (Lv : length v = length (dict_keys st2)). { subst v. rewrite !map2_length, SK. lia. }
  destruct (overwrite_values st2 v (proj1 SR) Lv) as [OK1 OK2].
  eexists. exists v. split; [rewrite OK2; reflexivity|]. split.
  { split; rewrite OK1; [exact (proj1 SR)|exact (proj2 SR)]. }
  split; [congruence|]. intros j k Hj. destruct (K j k Hj) as (a & b & Ea & Ebb & Hb).
  assert (Hu' : nth_error (us (length order)) j <> None). { apply nth_error_Some. rewrite Lu. apply nth_error_Some. congruence. }
  destruct (nth_error (us (length order)) j) as [u|] eqn:Eu; [|congruence]. exists a, b, u. split; [exact Hb|]. split; [reflexivity|].
  subst v. rewrite !map2_nth_error, SK, Ea, Ebb, Eu. reflexivity.
Qed.

Lemma gauss_reset n tn pool us st : init_reachable user (ie_default e) st -> in_random i = Some Normal -> has_flux order = false ->
  init_known e (in_interval i) order ->
  exists lo up, (do b0 <- plain_bounds e order; clip_bounds (in_interval i) b0) = Ok (lo, up) /\
  let mue := gauss_mue (fst (in_params i)) lo up in let sigma := or_num (snd (in_params i)) 1 in
  let draw := tn (map2 (fun l m => (l - m) / sigma) lo mue) (map2 (fun u m => (u - m) / sigma) up mue) mue sigma pool in
  (forall er, draw = Err er -> motor_reset i e n tn pool us st = Err er) /\
  (forall v, draw = Ok v -> length v = length order -> exists st', motor_reset i e n tn pool us st = Ok (st', v) /\ init_reachable user (ie_default e) st').
Proof.
  intros Hr Hrand Hf Hk. rewrite (reset_states _ _ _ _ _ _ _ _ Es Hne). rewrite (initialize_plain _ _ _ _ _ _ _ Es Hu Hd Hr Hf).
  fold order. destruct (box_ok _ _ _ Hk) as (lo & up & Eb). exists lo, up. split; [exact Eb|]. rewrite Eb. cbn [bind]. cbv zeta. rewrite Hrand.
  pose proof (started_keys _ _ _ Hu Hd Hr) as SK. fold order in SK.
  pose proof (started_reachable _ _ _ Hu Hd Hr) as SR.
  set (st2 := started user (ie_default e) st) in *. split.
  - intros er ->. reflexivity.
  - intros v -> Lv. cbn [bind]. rewrite <- SK in Lv. destruct (overwrite_values st2 v (proj1 SR) Lv) as [OK1 OK2].
    eexists. split; [rewrite OK2; reflexivity|]. split; rewrite OK1; [exact (proj1 SR)|exact (proj2 SR)].
Qed.
End Plain.
