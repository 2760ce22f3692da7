-Q theories Verif
theories/PyBase.v
theories/PyBaseFacts.v
theories/Env_Model.v
theories/Env_Spec.v
theories/Env_Proofs.v
theories/Env_Props.v
theories/PyDict.v
theories/PyDictFacts.v
theories/Utils_Model.v
theories/Utils_Spec.v
theories/Utils_Proofs.v
theories/Utils_Props.v
theories/Constraint_Model.v
theories/Constraint_Spec.v
theories/Constraint_Proofs.v
theories/Constraint_Props.v
theories/Reward_Model.v
theories/Reward_Spec.v
theories/Reward_Proofs.v
theories/Reward_Props.v
theories/Seed_Model.v
theories/Seed_Spec.v
theories/Seed_Proofs.v
theories/Seed_Props.v
theories/Conv_Model.v
theories/Conv_Spec.v
theories/Conv_Proofs.v
theories/Conv_Proofs2.v
theories/Conv_Props.v
theories/Solver_Model.v
theories/Solver_Spec.v
theories/Solver_Proofs.v
theories/Solver_Props.v
theories/Supply_Model.v
theories/Supply_Spec.v
theories/Supply_Proofs.v
theories/Supply_Props.v
theories/Transform_Model.v
theories/Transform_Spec.v
theories/Transform_Proofs.v
theories/Transform_Props.v
theories/Motor_Model.v
theories/Motor_Spec.v
theories/Motor_Proofs.v
theories/Motor_Props.v
theories/MotorLimit_Model.v
theories/MotorLimit_Spec.v
theories/MotorLimit_Proofs.v
theories/MotorLimit_Props.v
theories/Init_Model.v
theories/Init_Spec.v
theories/Init_Proofs.v
theories/Init_Props.v
theories/Loads_Model.v
theories/Loads_Spec.v
theories/Loads_Proofs.v
theories/Loads_Props.v
theories/PhysSys_Model.v
theories/PhysSys_Spec.v
theories/PhysSys_Proofs.v
theories/PhysSys_Proofs2.v
theories/PhysSys_Proofs3.v
theories/PhysSys_Props.v
theories/PhysSys_Props2.v
theories/PhysSys_Props3.v
theories/PhysSys_Props4.v
theories/RefGen_Model.v
theories/RefGen_Spec.v
theories/RefGen_Proofs.v
theories/RefGen_Proofs2.v
theories/RefGen_Proofs3.v
theories/RefGen_Proofs4.v
theories/RefGen_Props.v
theories/RefGen_Props2.v
theories/RefGen_Props3.v
theories/Ramp_Model.v
theories/Ramp_Spec.v
theories/Ramp_Proofs.v
theories/Ramp_Props.v
theories/Wrap_Model.v
theories/Wrap_Spec.v
theories/Wrap_Proofs.v
theories/Wrap_Proofs2.v
theories/Wrap_Proofs3.v
theories/Wrap_Proofs4.v
theories/Wrap_Props.v
theories/Wrap_Props2.v
theories/Wrap_Props3.v
theories/Wrap_Props4.v
theories/Wrap_Props5.v
theories/MotorClass_Model.v
theories/MotorClass_Spec.v
theories/MotorClass_Proofs.v
theories/MotorClass_Props.v
theories/Ctl_Model.v
theories/Ctl_Model2.v
theories/Ctl_Spec.v
theories/Ctl_Proofs.v
theories/Ctl_Proofs2.v
theories/Ctl_Props.v
theories/Ctl_Props2.v
theories/Ctl_Props3.v
theories/Emf_Props.v
theories/Ops_Model.v
theories/Ops_Proofs.v
theories/Ops_Props.v
theories/Ops_Props2.v
theories/Ops_Props3.v
theories/Ops_Props4.v
theories/Ops_Props5.v
theories/Loop_Proofs.v
theories/Loop_Spec.v
theories/Loop_Proofs2.v
theories/Loop_Props.v
theories/Speed_Spec.v
theories/Speed_Proofs.v
theories/Speed_Props.v
theories/Total_Props.v
theories/Pid_Props.v
theories/Out_Props.v
theories/Cascade_Props.v
theories/Preset_Model.v
theories/Preset_Props.v
theories/Full_Model.v
theories/Full_Spec.v
theories/Full_Proofs.v
theories/Full_Proofs2.v
theories/Full_Proofs3.v
theories/Full_Props.v
theories/Vis_Model.v
theories/Vis_Spec.v
theories/Vis_Proofs.v
theories/Vis_Proofs2.v
theories/Vis_Proofs3.v
theories/Vis_Proofs4.v
theories/Vis_Proofs5.v
theories/Vis_Proofs6.v
theories/Vis_Props.v
theories/Dq_Spec.v
theories/Dq_Proofs.v
theories/Dq_Proofs2.v
theories/Dq_Props.v
theories/Scipy_Model.v
theories/Scipy_Spec.v
theories/Scipy_Proofs.v
theories/Scipy_Proofs2.v
theories/Scipy_Proofs3.v
theories/Scipy_Props.v
theories/Alias_Model.v
theories/Alias_Spec.v
theories/Alias_Props.v
theories/Ex_Model.v
theories/Ex_Model2.v
theories/Ex_Spec.v
theories/Ex_Proofs.v
theories/Ex_Proofs2.v
theories/Ex_Proofs3.v
theories/Ex_Proofs4.v
theories/Ex_Proofs5.v
theories/Ex_Props.v
theories/Ex_Props2.v
theories/Motors_Model.v
theories/Motors_Props.v
theories/Design_Model.v
theories/Design_Spec.v
theories/Design_Proofs.v
theories/Design_Proofs2.v
theories/Design_Proofs3.v
theories/Design_Props.v
theories/Power_Spec.v
theories/Power_Proofs.v
theories/Power_Props.v
theories/Repro_Spec.v
theories/Repro_Proofs.v
theories/Repro_Proofs2.v
theories/Repro_Proofs3.v
theories/Repro_Proofs4.v
theories/Repro_Props.v
theories/Cmd_Spec.v
theories/Cmd_Proofs.v
theories/Cmd_Proofs2.v
theories/Cmd_Props.v
theories/Ex_Model3.v
theories/Ex_Spec2.v
theories/Ex_Proofs6.v
theories/Ex_Proofs7.v
theories/Ex_Props3.v
theories/Design_Model2.v
theories/Design_Spec2.v
theories/Design_Proofs4.v
theories/Design_Proofs5.v
theories/Design_Proofs6.v
theories/Design_Props2.v
theories/Ops_Model2.v
theories/Ops_Proofs2.v
theories/Ops_Props6.v
theories/Ops_Props7.v
theories/Ops_Props8.v
theories/Ops_Props9.v
theories/Ex_Model4.v
theories/Ex_Props4.v
theories/Ex_Props5.v
theories/Ex_Props6.v
theories/Ex_Props7.v
