(** Vocabulary for the properties of the automatic controller design for three-phase motors
    (Design_Props2.v). *)
From Verif Require Import Ops_Model.
From Verif Require Import PyBase PyDict Transform_Model PhysSys_Model Preset_Model Preset_Props Full_Spec Ex_Model Ex_Model2 Ex_Spec Ex_Model3 Ex_Spec2
  Design_Model Design_Spec Design_Model2.
Local Open Scope string_scope.
Local Open Scope list_scope.
Local Open Scope R_scope.

(** The action spaces of the default converters of the three-phase environments: three duty
    cycles or eight switching states per stator or wound rotor, and those of a four quadrant
    converter for an excitation winding. *)
Definition ac_space (c : conv_class) : option space :=
  match c with
  | Single ContB6 => Some (SBox [-1; -1; -1] [1; 1; 1]) | Single FinB6 => Some (SDisc 8)
  | Multi false [ContB6; Cont4] => Some (SBox [-1; -1; -1; -1] [1; 1; 1; 1]) | Multi true [FinB6; Fin4] => Some (SMulti [8; 4]%Z)
  | Multi false [ContB6; ContB6] => Some (SBox [-1; -1; -1; -1; -1; -1] [1; 1; 1; 1; 1; 1]) | Multi true [FinB6; FinB6] => Some (SMulti [8; 8]%Z)
  | _ => None
  end.
(** The motor parameters that the controllers read; all motor classes have them *)
Definition ac_parameters (m : motor_class) (mp : dict R) : Prop :=
  positive "p" mp /\
  match m with
  | Pmsm | Synrm | Eesm => positive "l_d" mp /\ positive "l_q" mp
  | _ => positive "l_m" mp /\ positive "l_sigs" mp /\ positive "l_sigr" mp /\ positive "r_s" mp /\ positive "r_r" mp
  end.
(** [d] is what the controllers see of the environment [p] with arbitrary positive limits,
    nominal values below them, motor parameters, state space, kind of object and numpy version *)
Record ac_of (p : preset) (d : tp) : Prop := {
  ao_sys : tp_sys d = pr_sys p;
  ao_names : en_names (tp_env d) = all_names p;
  ao_low : length (en_low (tp_env d)) = length (all_names p);
  ao_high : length (en_high (tp_env d)) = length (all_names p);
  ao_limits : Forall2 (fun n l => 0 < n <= l) (en_nominal (tp_env d)) (en_limits (tp_env d));
  ao_count : length (en_limits (tp_env d)) = length (all_names p);
  ao_space : ac_space (pr_conv p) = Some (en_space (tp_env d));
  ao_mp : ac_parameters (pr_motor p) (en_mp (tp_env d));
  ao_refs : tp_refs d = ref_names p;
  ao_tau : 0 < en_tau (tp_env d) }.

(** ** Histories *)
Section Histories.
Context {T : Type} (conv : T -> list R -> R -> res (T * (R * R))) (creset : T -> T).
(** The actions of a cascaded controller of synchronous motors *)
Fixpoint cf_run (c : cfoc) (ts : T) (s : cfocs) (h : list (ev (list R))) : res (list (list R)) :=
  match h with
  | [] => Ok []
  | Control x r :: h' => do o <- cfoc_step conv c ts s x r; do l <- cf_run c (fst (fst o)) (snd (fst o)) h'; Ok (snd o :: l)
  | ResetIt :: h' => cf_run c (creset ts) (cfoc_reset s) h'
  end.
End Histories.
Fixpoint imf_run (rd rq : nat) (c : imcp) (s : (R * R) * option (base * base)) (h : list (ev (list R))) : res (list (list R)) :=
  match h with
  | [] => Ok []
  | Control x r :: h' => do o <- imf_control rd rq c s x r; do l <- imf_run rd rq c (fst o) h'; Ok (snd o :: l)
  | ResetIt :: h' => do s' <- imf_reset s; imf_run rd rq c s' h'
  end.
(** The torque limit is above the torque that the current limit allows, so that the table of
    optimal fluxes has an entry above zero *)
Definition flux_defined (e : env) : Prop :=
  forall p lm lsr lss rr rs ld tl nd nt, dict_item "p" (en_mp e) = Ok p -> dict_item "l_m" (en_mp e) = Ok lm -> dict_item "l_sigr" (en_mp e) = Ok lsr -> dict_item "l_sigs" (en_mp e) = Ok lss ->
  dict_item "r_r" (en_mp e) = Ok rr -> dict_item "r_s" (en_mp e) = Ok rs -> quantity e "i_sd" ld nd -> quantity e "torque" tl nt ->
  let M := 3 / 2 * p * (lm * lm) / (lm + lsr) in rs * (M * M) * (ld * ld * (ld * ld)) < (rs + rr * (lm * lm) / ((lm + lsr) * (lm + lsr))) * (tl * tl).
(** The controller can be used in any history: every action is in the action space, and nothing
    raises but the torque conversion of synchronous motors, and the one of induction motors for
    drives without [flux_defined] (or with different nominal currents).  [Ok None] is a nan
    action of the torque conversion (Ex_Props3.v). *)
Definition usable3 (d : tp) (m : made3) : Prop :=
  forall h, Forall (sized (length (en_names (tp_env d))) (length (tp_refs d))) h ->
  let fine l := Forall (in_space (en_space (tp_env d))) l in
  match m with
  | MCfoc c s => forall T (conv : T -> list R -> R -> res (T * (R * R))) creset ts,
      match cf_run conv creset c ts s h with Ok l => fine l | Err x => exists ts' st t, conv ts' st t = Err x end
  | MImf rd rq c s => exists l, imf_run rd rq c ((0, 0), s) h = Ok l /\ fine l
  | MImc c s => match imc_run c s h with
                | Ok (Some (_, l)) => fine l | Ok None => True
                | Err _ => ~ (flux_defined (tp_env d) /\ exists ld lq n, quantity (tp_env d) "i_sd" ld n /\ quantity (tp_env d) "i_sq" lq n)
                end
  | MHollow _ => False
  end.
(** No call ever returns an action in the action space. *)
Definition useless (d : tp) (m : made3) : Prop :=
  forall h, Forall (sized (length (en_names (tp_env d))) (length (tp_refs d))) h ->
  let bad l := Forall (fun a => ~ in_space (en_space (tp_env d)) a) l in
  match m with
  | MCfoc c s => forall T (conv : T -> list R -> R -> res (T * (R * R))) creset ts l, cf_run conv creset c ts s h = Ok l -> bad l
  | MImf rd rq c s => forall l, imf_run rd rq c ((0, 0), s) h = Ok l -> l = []
  | MImc c s => forall s' l, imc_run c s h = Ok (Some (s', l)) -> l = []
  | MHollow x => forall st r a, hollow_control x st r <> Ok a
  end.

(** What the automatic design leads to *)
Inductive verdict3 := Works | Useless | Raise (x : exn).
(** Synchronous motors: the exception of the torque conversion, or [v] *)
Definition converted (d : tp) (v : verdict3) : verdict3 :=
  match tp_tables d with
  | Err x => Raise x
  | Ok _ => if tp_complex d then match tp_grid d with Err x => Raise x | Ok _ => v end else Raise AttributeError
  end.
Definition ac_verdict (finite : bool) (t : task) (m : motor_class) (d : tp) : verdict3 :=
  match tp_access d with
  | Opaque => Raise AttributeError
  | _ =>
      match m, t, finite with
      | Scim, _, true => Raise IndexError
      | Scim, _, false => if tp_complex d then Works else Raise AttributeError
      | Dfim, _, _ => if tp_complex d then Useless else Raise AttributeError
      | _, CurrentControl, _ => Raise AttributeError
      | Eesm, SpeedControl, true => Raise IndexError
      | Eesm, _, true => converted d (Raise AssertionError)
      | Eesm, _, false => converted d Useless
      | _, SpeedControl, true => converted d (Raise TypeError)
      | _, _, _ => converted d Works
      end
  end.
