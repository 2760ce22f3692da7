(** Proofs about the cos/sin and the current sum wrapper. *)
From Verif Require Import PyBase PyBaseFacts PyDict PyDictFacts Conv_Model Transform_Model PhysSys_Model Wrap_Model Wrap_Spec Wrap_Proofs.
Local Open Scope string_scope. Local Open Scope list_scope. Local Open Scope R_scope.

Lemma delete_at_length {A} i (l : list A) : (i < length l)%nat -> length (delete_at i l) = (length l - 1)%nat.
Proof. revert i. induction l as [|x l IH]; intros [|i] H; cbn in *; [lia|lia|lia|]. rewrite IH by lia. lia. Qed.
Lemma delete_at_nth {A} i (l : list A) j : nth_error (delete_at i l) j = nth_error l (if Nat.ltb j i then j else S j).
Proof.
  revert i j. induction l as [|x l IH]; intros i j.
  - assert (E : forall k, nth_error (@nil A) k = None) by (intros [|k]; reflexivity). destruct i; cbn [delete_at]; rewrite !E; reflexivity.
  - destruct i as [|i], j as [|j]; cbn [delete_at]; try reflexivity. cbn [nth_error]. rewrite IH. change (Nat.ltb (S j) (S i)) with (Nat.ltb j i). destruct (Nat.ltb j i); reflexivity.
Qed.
Lemma delete_at_app {A} i (l m : list A) : (i < length l)%nat -> delete_at i (l ++ m) = delete_at i l ++ m.
Proof. revert i. induction l as [|x l IH]; intros [|i] H; cbn in *; try lia; [reflexivity|]. f_equal. apply IH. lia. Qed.
Lemma np_delete_ok {A} i (l : list A) : (i < length l)%nat -> np_delete (Some i) l = Ok (delete_at i l).
Proof. intros H. unfold np_delete. destruct (Nat.ltb_spec i (length l)); [reflexivity|lia]. Qed.
Lemma delete_at_in {A} i (l : list A) x : In x (delete_at i l) -> In x l.
Proof. revert i. induction l as [|y l IH]; intros [|i] H; cbn in *; try tauto. destruct H as [H|H]; eauto. Qed.
Lemma delete_at_nodup {A} i (l : list A) : NoDup l -> NoDup (delete_at i l).
Proof.
  revert i. induction l as [|y l IH]; intros i H; [destruct i; constructor|]. inversion H as [|y' l' H1 H2]; subst. destruct i as [|i]; cbn; [exact H2|]. constructor; [|apply IH; exact H2].
  intros Hi. apply H1. eapply delete_at_in. exact Hi.
Qed.

Lemma shown_iff names o k v : NoDup names -> shown names o k = Some v <-> exists i, nth_error names i = Some k /\ nth_error o i = Some v.
Proof.
  intros Hn. unfold shown. split.
  - destruct (str_index k names) as [i|e] eqn:E; [|discriminate]. intros H. exists i. split; [apply str_index_ok, E|exact H].
  - intros (i & H1 & H2). rewrite (str_index_nodup _ _ _ Hn H1). exact H2.
Qed.
Lemma shown_at names o i k : NoDup names -> nth_error names i = Some k -> shown names o k = nth_error o i.
Proof. intros Hn H. unfold shown. rewrite (str_index_nodup _ _ _ Hn H). reflexivity. Qed.

Lemma positions_spec names k j : NoDup names -> dict_get k (positions names) = Some j <-> nth_error names j = Some k.
Proof.
  intros Hn. unfold positions. assert (Hk : dict_keys (combine names (seq 0 (length names))) = names).
  { unfold dict_keys. generalize O. induction names as [|x l IH]; intros s; [reflexivity|]. cbn. f_equal. apply IH. inversion Hn; assumption. }
  unfold dict_of_pairs. rewrite dict_get_update by (rewrite Hk; exact Hn). cbn [dict_get].
  assert (G : forall s, dict_get k (combine names (seq s (length names))) = Some (s + j)%nat <-> nth_error names j = Some k).
  { clear Hk. revert j. induction names as [|x l IH]; intros j s; cbn; [destruct j; split; discriminate|]. inversion Hn as [|x' l' H1 H2]; subst. destruct (String.eqb_spec x k) as [->|Hx].
    - split. + intros E. injection E as E. replace j with O by lia. reflexivity.
      + destruct j as [|j]; cbn; intros E; [f_equal; lia|]. exfalso. apply H1. eapply nth_error_In. exact E.
    - destruct j as [|j]; cbn [nth_error].
      + split; intros E; [|congruence]. exfalso. assert (G : forall i, dict_get k (combine l (seq (S s) (length l))) = Some i -> (S s <= i)%nat).
        { clear. generalize (S s). induction l as [|y l IH]; intros t i; cbn; [discriminate|]. destruct (String.eqb y k); [intros E; injection E as <-; lia|]. intros E. apply IH in E. lia. }
        apply G in E. lia.
      + rewrite <- (IH H2 j (S s)). replace (s + S j)%nat with (S s + j)%nat by lia. reflexivity. }
  specialize (G O). cbn [Nat.add] in G. rewrite <- G. destruct (dict_get k (combine _ _)) as [v|]; split; intros E; try discriminate; exact E.
Qed.

(** ** Cos/sin *)
Definition kept {A} (c : cossin) (idx : nat) (l : list A) : list A := if cs_remove c then delete_at idx l else l.
Lemma kept_np {A} c idx (l : list A) : (idx < length l)%nat -> np_delete (if cs_remove c then Some idx else None) l = Ok (kept c idx l).
Proof. intros H. unfold kept. destruct (cs_remove c); [now apply np_delete_ok|reflexivity]. Qed.
Lemma kept_length {A} c idx (l : list A) : (idx < length l)%nat -> length (kept c idx l) = (if cs_remove c then length l - 1 else length l)%nat.
Proof. intros H. unfold kept. destruct (cs_remove c); [now apply delete_at_length|reflexivity]. Qed.
Lemma kept_nodup {A} c idx (l : list A) : NoDup l -> NoDup (kept c idx l).
Proof. intros H. unfold kept. destruct (cs_remove c); [now apply delete_at_nodup|exact H]. Qed.
Lemma kept_in {A} c idx (l : list A) x : In x (kept c idx l) -> In x l.
Proof. unfold kept. destruct (cs_remove c); [apply delete_at_in|auto]. Qed.
Definition new_pos (c : cossin) (idx i : nat) : nat := if cs_remove c then if Nat.ltb i idx then i else (i - 1)%nat else i.
Lemma kept_nth {A} c idx (l : list A) i : cs_remove c = false \/ i <> idx -> nth_error (kept c idx l) (new_pos c idx i) = nth_error l i.
Proof.
  unfold kept, new_pos. destruct (cs_remove c); [|reflexivity]. intros [H|H]; [discriminate|]. rewrite delete_at_nth. f_equal.
  destruct (Nat.ltb_spec i idx) as [H1|H1]; [destruct (Nat.ltb_spec i idx); lia|destruct (Nat.ltb_spec (i - 1) idx); lia].
Qed.

Lemma cs_machine_inv {S} n c (m : machine S) M : aligned n (m_info m) -> cs_machine c m = Ok M ->
  exists idx, (idx < n)%nat /\ nth_error (i_names (m_info m)) idx = Some (cs_angle c) /\
    m_info M = {| i_names := kept c idx (i_names (m_info m)) ++ [fun_name "cos" (cs_angle c); fun_name "sin" (cs_angle c)];
                  i_pos := positions (kept c idx (i_names (m_info m)) ++ [fun_name "cos" (cs_angle c); fun_name "sin" (cs_angle c)]);
                  i_limits := kept c idx (i_limits (m_info m)) ++ [1; 1]; i_nominal := kept c idx (i_nominal (m_info m)) ++ [1; 1];
                  i_low := kept c idx (i_low (m_info m)) ++ [-1; -1]; i_high := kept c idx (i_high (m_info m)) ++ [1; 1];
                  i_tau := i_tau (m_info m); i_act := i_act (m_info m); i_dead := i_dead (m_info m); i_motor := i_motor (m_info m) |} /\
    (forall s, m_reset M s = post (fun s => s) (get_cos_sin idx) (m_reset m s)) /\
    (forall a s, m_sim M a s = post (fun s => s) (fun st => do x <- get_cos_sin idx st; if cs_remove c then np_delete (Some idx) x else Ok x) (m_sim m a s)).
Proof.
  intros (L1 & L2 & L3 & L4 & L5 & Hn & Hp) H. unfold cs_machine, cs_info in H. destruct (dict_item (cs_angle c) (i_pos (m_info m))) as [idx|e] eqn:E; [|discriminate]. cbn [bind] in H.
  unfold dict_item in E. destruct (dict_get (cs_angle c) (i_pos (m_info m))) as [j|] eqn:E1; [|discriminate]. injection E as ->. apply Hp in E1.
  assert (Hi : (idx < n)%nat) by (rewrite <- L1; apply nth_error_Some; congruence).
  rewrite !kept_np in H by lia. cbn [bind fst snd] in H. apply Ok_inj in H. subst M. exists idx. split; [exact Hi|]. split; [exact E1|]. split; [reflexivity|]. split; reflexivity.
Qed.
Lemma get_cos_sin_ok idx (st : list R) e : nth_error st idx = Some e -> get_cos_sin idx st = Ok (st ++ [cos (e * PI); sin (e * PI)]).
Proof. intros H. unfold get_cos_sin, item. rewrite H. reflexivity. Qed.
Lemma cs_sim_inv {S} n c (m : machine S) M a s s' o' : aligned n (m_info m) -> sized n m -> cs_machine c m = Ok M -> m_sim M a s = (s', Ok o') ->
  exists idx o e, (idx < n)%nat /\ nth_error (i_names (m_info m)) idx = Some (cs_angle c) /\ m_sim m a s = (s', Ok o) /\ length o = n /\ nth_error o idx = Some e /\ o' = kept c idx o ++ [cos (e * PI); sin (e * PI)].
Proof.
  intros Ha Hs H Hm. destruct (cs_machine_inv n c m M Ha H) as (idx & Hi & Hx & _ & _ & Es). rewrite Es in Hm. unfold post in Hm. destruct (m_sim m a s) as [s1 r] eqn:E. cbn [fst snd] in Hm.
  destruct r as [o|e]; [|discriminate]. pose proof (proj2 Hs _ _ _ _ E) as Hl. cbn [bind] in Hm. destruct (nth_error o idx) as [e|] eqn:Eo; [|apply nth_error_None in Eo; lia].
  rewrite (get_cos_sin_ok _ _ _ Eo) in Hm. cbn [bind] in Hm. apply pair_equal_spec in Hm. destruct Hm as [<- Hm]. exists idx, o, e. repeat split; auto. unfold kept. destruct (cs_remove c).
  - rewrite np_delete_ok in Hm by (rewrite app_length; lia). apply Ok_inj in Hm. subst o'. apply delete_at_app. lia.
  - apply Ok_inj in Hm. symmetry. exact Hm.
Qed.
Lemma cos_sin_names a : fun_name "cos" a <> fun_name "sin" a.
Proof. unfold fun_name. cbn. discriminate. Qed.
Lemma nodup_snoc2 {A} (l : list A) x y : NoDup l -> ~ In x l -> ~ In y l -> x <> y -> NoDup (l ++ [x; y]).
Proof.
  intros Hl Hx Hy Hxy. induction Hl as [|z l H1 H2 IH]; cbn.
  - constructor; [intros [E|[]]; congruence|]. constructor; [intros []|constructor].
  - constructor.
    + rewrite in_app_iff. intros [E|[E|[E|[]]]]; subst; [contradiction|apply Hx; now left|apply Hy; now left].
    + apply IH; intros E; [apply Hx|apply Hy]; now right.
Qed.
Lemma nth_error_snoc2 {A} (l : list A) x y : nth_error (l ++ [x; y]) (length l) = Some x /\ nth_error (l ++ [x; y]) (S (length l)) = Some y.
Proof. split; rewrite nth_error_app2 by lia; [rewrite Nat.sub_diag|replace (S (length l) - length l)%nat with 1%nat by lia]; reflexivity. Qed.

(** ** Current sum *)
Lemma dict_items_ok names pos ks : NoDup names -> (forall k j, dict_get k pos = Some j <-> nth_error names j = Some k) ->
  (forall k, In k ks -> In k names) -> exists idx, dict_items ks pos = Ok idx /\ length idx = length ks /\ (forall j k, nth_error ks j = Some k -> exists i, nth_error idx j = Some i /\ nth_error names i = Some k).
Proof.
  intros Hn Hp. induction ks as [|k ks IH]; intros Hk.
  - exists []. split; [reflexivity|]. split; [reflexivity|]. intros [|j] k; discriminate.
  - destruct (In_nth_error _ _ (Hk k (or_introl eq_refl))) as [i Hi]. destruct IH as (idx & E & L & G); [intros k' H'; apply Hk; now right|]. exists (i :: idx). cbn [dict_items]. unfold dict_item. rewrite (proj2 (Hp k i) Hi), E. cbn [bind].
    split; [reflexivity|]. split; [cbn; lia|]. intros [|j] k' H; cbn in *; [injection H as <-; eauto|eauto].
Qed.
Lemma dict_items_inv names pos ks idx : (forall k j, dict_get k pos = Some j <-> nth_error names j = Some k) -> dict_items ks pos = Ok idx ->
  length idx = length ks /\ (forall j k, nth_error ks j = Some k -> exists i, nth_error idx j = Some i /\ nth_error names i = Some k) /\ (forall i, In i idx -> (i < length names)%nat).
Proof.
  intros Hp. revert idx. induction ks as [|k ks IH]; intros idx H; cbn [dict_items] in H.
  - apply Ok_inj in H. subst. split; [reflexivity|]. split; [intros [|j] k; discriminate|intros i []].
  - unfold dict_item in H. destruct (dict_get k pos) as [i|] eqn:E; [|discriminate]. cbn [bind] in H. destruct (dict_items ks pos) as [is|] eqn:E2; [|discriminate]. cbn [bind] in H. apply Ok_inj in H. subst.
    destruct (IH is eq_refl) as (L & G & B). apply Hp in E. split; [cbn; lia|]. split.
    + intros [|j] k' H; cbn in *; [injection H as <-; eauto|eauto].
    + intros i' [<-|Hi]; [apply nth_error_Some; congruence|auto].
Qed.
Lemma dict_items_nodup names pos ks idx : NoDup ks -> (forall k j, dict_get k pos = Some j <-> nth_error names j = Some k) -> dict_items ks pos = Ok idx -> NoDup idx.
Proof.
  intros Hn Hp H. destruct (dict_items_inv names pos ks idx Hp H) as (L & G & B). apply NoDup_nth_error. intros a b Ha E.
  destruct (nth_error ks a) as [ka|] eqn:Ea; [|apply nth_error_None in Ea; lia]. destruct (G a ka Ea) as (ia & Ha1 & Ha2).
  assert (Hb : (b < length ks)%nat). { rewrite <- L. apply nth_error_Some. rewrite <- E. congruence. }
  destruct (nth_error ks b) as [kb|] eqn:Eb; [|apply nth_error_None in Eb; lia]. destruct (G b kb Eb) as (ib & Hb1 & Hb2).
  assert (ka = kb) by congruence. subst kb. apply (proj1 (NoDup_nth_error ks) Hn); [lia|congruence].
Qed.
Lemma fold_max_all l L : (forall x, In x l -> x = L) -> fold_left Rmax l L = L.
Proof. induction l as [|x l IH]; intros H; [reflexivity|]. cbn [fold_left]. rewrite (H x) by (now left). rewrite Rmax_left by lra. apply IH. intros y Hy. apply H. now right. Qed.
Lemma py_max_all l L : l <> [] -> (forall x, In x l -> x = L) -> py_max l = Ok L.
Proof. destruct l as [|x l]; [congruence|]. intros _ H. cbn. rewrite (H x) by (now left). rewrite fold_max_all; [reflexivity|]. intros y Hy. apply H. now right. Qed.
Lemma rsum_scale vs ls L : length vs = length ls -> (forall x, In x ls -> x = L) -> rsum (map2 Rmult vs ls) = rsum vs * L.
Proof.
  revert ls. induction vs as [|v vs IH]; intros [|l ls] H HL; cbn in *; try discriminate; [lra|]. rewrite (IH ls); [|lia|intros x Hx; apply HL; now right]. rewrite (HL l) by (now left). lra.
Qed.
Lemma rsum_const ls L : (forall x, In x ls -> x = L) -> rsum ls = INR (length ls) * L.
Proof.
  induction ls as [|l ls IH]; intros HL; [cbn; lra|]. cbn [rsum length]. rewrite S_INR, IH by (intros x Hx; apply HL; now right). rewrite (HL l) by (now left). lra.
Qed.
Lemma cu_machine_inv {S} n c (m : machine S) M : aligned n (m_info m) -> cu_machine c m = Ok M ->
  exists idx lim nom ll nn p, length idx = length (cu_currents c) /\
    (forall j k, nth_error (cu_currents c) j = Some k -> exists i, nth_error idx j = Some i /\ nth_error (i_names (m_info m)) i = Some k) /\ (forall i, In i idx -> (i < n)%nat) /\
    select idx (i_limits (m_info m)) = Ok ll /\ cu_limit c ll = Ok lim /\ select idx (i_nominal (m_info m)) = Ok nn /\ cu_limit c nn = Ok nom /\
    str_index "i_sum" (i_names (m_info m) ++ ["i_sum"]) = Ok p /\
    m_info M = {| i_names := i_names (m_info m) ++ ["i_sum"]; i_pos := dict_set "i_sum" p (i_pos (m_info m)); i_limits := i_limits (m_info m) ++ [lim]; i_nominal := i_nominal (m_info m) ++ [nom];
                  i_low := i_low (m_info m) ++ [-1]; i_high := i_high (m_info m) ++ [1]; i_tau := i_tau (m_info m); i_act := i_act (m_info m); i_dead := i_dead (m_info m); i_motor := i_motor (m_info m) |} /\
    (forall s, m_reset M s = post (fun s => s) (add_sum idx) (m_reset m s)) /\ (forall a s, m_sim M a s = post (fun s => s) (add_sum idx) (m_sim m a s)).
Proof.
  intros (L1 & L2 & L3 & L4 & L5 & Hn & Hp) H. unfold cu_machine, cu_info in H. destruct (dict_items (cu_currents c) (i_pos (m_info m))) as [idx|] eqn:E1; [|discriminate]. cbn [bind] in H.
  destruct (dict_items_inv _ _ _ _ Hp E1) as (L & G & B).
  destruct (select idx (i_limits (m_info m))) as [ll|] eqn:E2; [|discriminate]. cbn [bind] in H. destruct (cu_limit c ll) as [lim|] eqn:E3; [|discriminate]. cbn [bind] in H.
  destruct (select idx (i_nominal (m_info m))) as [nn|] eqn:E4; [|discriminate]. cbn [bind] in H. destruct (cu_limit c nn) as [nom|] eqn:E5; [|discriminate]. cbn [bind] in H.
  destruct (str_index "i_sum" (i_names (m_info m) ++ ["i_sum"])) as [p|] eqn:E6; [|discriminate]. cbn [bind] in H. apply Ok_inj in H. subst M.
  exists idx, lim, nom, ll, nn, p. split; [exact L|]. split; [exact G|]. split; [intros i Hi; rewrite <- L1; auto|]. split; [exact E2|]. split; [exact E3|]. split; [exact E4|]. split; [exact E5|]. split; [reflexivity|]. split; [reflexivity|]. split; reflexivity.
Qed.
Lemma add_sum_inv idx o o' : add_sum idx o = Ok o' -> exists vs, select idx o = Ok vs /\ o' = o ++ [rsum vs].
Proof. unfold add_sum. destruct (select idx o) as [vs|]; [|discriminate]. cbn [bind]. intros H. apply Ok_inj in H. eauto. Qed.
