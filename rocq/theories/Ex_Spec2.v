(** Vocabulary for the properties of the torque and speed control of induction motors in the
    examples (Ex_Props3.v). *)
From Verif Require Import Ops_Model.
From Verif Require Import PyBase PyDict Transform_Model PhysSys_Model Ex_Model Ex_Model2 Ex_Spec Ex_Model3.
Local Open Scope string_scope.
Local Open Scope list_scope.
Local Open Scope R_scope.

(** ** Torque conversion *)
(** A call of [control] (state, torque, estimated flux) or [reset] *)
Inductive tev := TControl (state : list R) (torque psi : R) | TReset.
(** What a call was given and what it returned: torque, flux estimate, references for i_sq and
    i_sd, flux demand *)
Definition tout : Type := R * R * (nan * R * R).
Fixpoint imt_run (m : imt) (s : ims) (h : list tev) : res (ims * list tout) :=
  match h with
  | [] => Ok (s, [])
  | TControl x t psi :: h' => do o <- imt_control m s x t psi; do y <- imt_run m (fst o) h'; Ok (fst y, (t, psi, snd o) :: snd y)
  | TReset :: h' => imt_run m (imt_reset s) h'
  end.
(** The environment has the quantity [name] with this limit and nominal value. *)
Definition quantity (e : env) (name : string) (lim nom : R) : Prop :=
  exists j, str_index name (en_names e) = Ok j /\ item (en_limits e) j = Ok lim /\ item (en_nominal e) j = Ok nom.
(** The normalised state [x] shows [v] for the quantity [name]. *)
Definition value_of (e : env) (name : string) (x : list R) (v : R) : Prop := exists j, str_index name (en_names e) = Ok j /\ item x j = Ok v.
(** An induction motor drive: motor parameters, limits of the currents and the torque, nominal
    current (the same for both components), voltage and speed *)
Definition im_drive (e : env) (p lm lsr lss rr rs ld lq tl n un wn : R) : Prop :=
  dict_item "p" (en_mp e) = Ok p /\ dict_item "l_m" (en_mp e) = Ok lm /\ dict_item "l_sigr" (en_mp e) = Ok lsr /\ dict_item "l_sigs" (en_mp e) = Ok lss /\
  dict_item "r_r" (en_mp e) = Ok rr /\ dict_item "r_s" (en_mp e) = Ok rs /\
  0 < p /\ 0 < lm /\ 0 < lm + lsr /\ 0 < lm + lss /\ 0 < rs /\ 0 < ld /\ 0 < lq /\ 0 < tl /\ 0 < n /\ 0 < wn /\
  quantity e "i_sd" ld n /\ quantity e "i_sq" lq n /\ (exists nt, quantity e "torque" tl nt) /\ (exists lu, quantity e "u_sd" lu un) /\ (exists lw, quantity e "omega" lw wn).
(** The torque of an induction motor with rotor flux [psi] and torque current [q] *)
Definition im_torque (p lm lr psi q : R) : R := 3 / 2 * p * lm / lr * psi * q.
(** What the nominal voltage at nominal speed leaves for the square of the torque current when
    the flux is [psi] (the stator flux is taken for l_s times the stator current) *)
Definition q_room (un wn ls lm psi : R) : R := un * un / (wn * wn * (ls * ls)) - psi / lm * (psi / lm).
(** [v] is the torque current of largest amount among those that push in the direction of the
    demand, make with the flux [psi] at most the demanded torque and at most the torque [tmax],
    and stay with [d] in the circle of radius [n]. *)
Definition allowed_q (p lm lr psi torque tmax n d v : R) : Prop :=
  0 <= v * torque /\ Rabs (im_torque p lm lr psi v) <= Rabs torque /\ Rabs (im_torque p lm lr psi v) <= tmax /\ v * v + d * d <= n * n.
Definition best_q (p lm lr psi torque tmax n d v : R) : Prop :=
  allowed_q p lm lr psi torque tmax n d v /\ forall x, allowed_q p lm lr psi torque tmax n d x -> Rabs x <= Rabs v.
(** The stator voltage of a state is above 1.01 times half the supply voltage. *)
Definition over_modulated (e : env) (x : list R) : Prop :=
  exists jd jq ja sd sq ld lq la, str_index "u_sd" (en_names e) = Ok jd /\ str_index "u_sq" (en_names e) = Ok jq /\ str_index "u_sa" (en_names e) = Ok ja /\
    item x jd = Ok sd /\ item x jq = Ok sq /\ item (en_limits e) jd = Ok ld /\ item (en_limits e) jq = Ok lq /\ item (en_limits e) ja = Ok la /\
    101 / 100 * (sqrt 3 * la) < 2 * sqrt (sd * ld * (sd * ld) + sq * lq * (sq * lq)).
(** The flux demand of a call *)
Definition flux_of (o : ims * (nan * R * R)) : R := snd (snd o).

(** ** The whole controller *)
Fixpoint imc_run (c : imcp) (s : imcs) (h : list (ev (list R))) : res (option (imcs * list (list R))) :=
  match h with
  | [] => Ok (Some (s, []))
  | Control x r :: h' =>
      do o <- imc_control c s x r;
      match o with
      | None => Ok None
      | Some (s', a) => do y <- imc_run c s' h'; match y with None => Ok None | Some (s2, l) => Ok (Some (s2, a :: l)) end
      end
  | ResetIt :: h' => imc_run c (imc_reset s) h'
  end.
(** The actions of a history *)
Definition acts_of (o : res (option (imcs * list (list R)))) : res (option (list (list R))) :=
  match o with Err x => Err x | Ok None => Ok None | Ok (Some (_, l)) => Ok (Some l) end.
(** A controller with another value in the integrator of the modulation controller *)
Definition with_int (v : R) (s : imcs) : imcs :=
  {| cs_ref := cs_ref s; cs_flux := cs_flux s; cs_t := match cs_t s with None => None | Some t => Some {| is_psi := is_psi t; is_int := v |} end;
     cs_d := cs_d s; cs_q := cs_q s; cs_over := cs_over s |}.
Definition int_of (s : imcs) : R := match cs_t s with None => 0 | Some t => is_int t end.
(** The first correction of the flux by the modulation controller of a new torque conversion in
    state [x]: gain times deviation of the modulation from 0.8 times sampling time *)
Definition first_correction (e : env) (p ls rs : R) (x : list R) (d : R) : Prop :=
  exists jd jq ja jw sd sq w ld lq la lw, str_index "u_sd" (en_names e) = Ok jd /\ str_index "u_sq" (en_names e) = Ok jq /\ str_index "u_sa" (en_names e) = Ok ja /\ str_index "omega" (en_names e) = Ok jw /\
    item x jd = Ok sd /\ item x jq = Ok sq /\ item x jw = Ok w /\ item (en_limits e) jd = Ok ld /\ item (en_limits e) jq = Ok lq /\ item (en_limits e) ja = Ok la /\ item (en_limits e) jw = Ok lw /\
    let udc := sqrt 3 * la in let alpha := 2 / (2 - sqrt 3) in
    d = 1 / (ls / (125 / 100 * rs)) * (alpha - 1) / (alpha * alpha) * (2 * Rabs (Rmax (Rabs w * lw) (1 / 10000)) * p / udc) *
        ((8 / 10 - 2 * sqrt (sd * ld * (sd * ld) + sq * lq * (sq * lq)) / udc) * en_tau e).
(** Control with the standard action space: amplitudes from -1 to 1 of the voltage limit [L] *)
Definition standard_box (c : imcp) (L : R) : Prop :=
  cp_alow c = [-1; -1; -1] /\ cp_ahigh c = [1; 1; 1] /\ select (cp_u c) (cp_limits c) = Ok [L; L; L] /\ 0 < L.
Definition box_action (act : list R) : Prop := length act = 3%nat /\ Forall (fun x => -1 <= x <= 1) act.
(** The action makes these dq voltages when the rotor flux is at [angle]. *)
Definition makes (L : R) (act : list R) (angle ud uq : R) : Prop := abc_to_dq (map (Rmult L) act) angle false = Ok [ud; uq].
