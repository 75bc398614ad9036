-Q theories Verif
theories/Base.v
theories/F64_Model.v
theories/Term_Model.v
theories/Term_Spec.v
theories/Term_Proofs.v
theories/Props_Term.v
theories/Unify_Model.v
theories/Unify_Spec.v
theories/Unify_Proofs.v
theories/Props_Unify.v
theories/Stamp_Model.v
theories/Stamp_Proofs.v
theories/Props_Stamp.v
theories/F64_Proofs.v
theories/Tv_Model.v
theories/Tv_Spec.v
theories/Tv_Proofs.v
theories/TvQ_Proofs.v
theories/Sentence_Model.v
theories/Sentence_Proofs.v
theories/Props_Tv.v
theories/Infer_Model.v
theories/Infer_Spec.v
theories/Infer_Proofs.v
theories/Infer2_Proofs.v
theories/Props_Infer.v
theories/Sort_Proofs.v
theories/Mem_Model.v
theories/Mem_Spec.v
theories/Mem_Proofs.v
theories/Props_Mem.v
theories/Cycle_Model.v
theories/Cycle_Spec.v
theories/Cycle_Proofs.v
theories/Select_Proofs.v
theories/Task_Proofs.v
theories/Run_Proofs.v
theories/Props_Cycle.v
theories/Deriv_Proofs.v
theories/Props_Deriv.v
theories/PMem_Model.v
theories/PMem_Proofs.v
theories/PMem2_Proofs.v
theories/Goal_Model.v
theories/Goal_Spec.v
theories/Goal_Proofs.v
theories/Goal2_Proofs.v
theories/Goal3_Proofs.v
theories/Goal5_Proofs.v
theories/GoalW_Proofs.v
theories/Goal4_Proofs.v
theories/Props_Goal.v
theories/Proc_Model.v
theories/Proc_Spec.v
theories/ProcA_Proofs.v
theories/ProcP_Proofs.v
theories/ProcB_Proofs.v
theories/ProcC_Proofs.v
theories/ProcV_Proofs.v
theories/ProcS_Model.v
theories/ProcS_Proofs.v
theories/ProcS2_Proofs.v
theories/Props_Proc.v
theories/Parser_Model.v
theories/Parser_Spec.v
theories/Parser_Proofs.v
theories/Parser2_Proofs.v
theories/Parser3_Proofs.v
theories/Props_Parser.v
theories/Nar_Model.v
theories/Nar_Spec.v
theories/Nar_Proofs.v
theories/Nar2_Proofs.v
theories/Nar3_Proofs.v
theories/Props_Nar.v
theories/Server_Model.v
theories/Server_Spec.v
theories/Server_Proofs.v
theories/Props_Server.v
theories/Env_Model.v
theories/Env_Spec.v
theories/Env_Proofs.v
theories/Props_Env.v
theories/Map_Model.v
theories/Map_Spec.v
theories/Map_Proofs.v
theories/Props_Map.v
theories/Vision_Model.v
theories/Vision_Spec.v
theories/Vision_Proofs.v
theories/Vision2_Proofs.v
theories/VisionQ_Proofs.v
theories/Props_Vision.v
theories/Ad_Model.v
theories/Ad_Spec.v
theories/Ad_Proofs.v
theories/Nn_Proofs.v
theories/Vec_Proofs.v
theories/Props_Ad.v
theories/Sched_Model.v
theories/Sched_Spec.v
theories/Sched_Proofs.v
theories/Sched2_Proofs.v
theories/Sched3_Proofs.v
theories/Props_Sched.v
theories/Nlp_Model.v
theories/Nlp_Spec.v
theories/Nlp_Proofs.v
theories/Nlp2_Proofs.v
theories/Nlp3_Proofs.v
theories/Nlp4_Proofs.v
theories/Nlp5_Proofs.v
theories/Props_Nlp.v
theories/Eval_Model.v
theories/Eval_Proofs.v
theories/Eval2_Proofs.v
theories/Props_Eval.v
theories/Speak_Spec.v
theories/Speak_Proofs.v
theories/Safe_Spec.v
theories/Safe_Proofs.v
theories/Safe2_Proofs.v
theories/Safe3_Proofs.v
theories/Safe4_Proofs.v
theories/Safe5_Proofs.v
theories/Props_Safe.v
theories/ProcX_Model.v
theories/ProcX_Spec.v
theories/ProcX_Proofs.v
theories/ProcX2_Proofs.v
theories/ProcX3_Proofs.v
theories/ProcX4_Proofs.v
theories/Props_ProcX.v
theories/Read_Spec.v
theories/Read_Proofs.v
theories/Props_Read.v
theories/Whole_Model.v
theories/Whole_Spec.v
theories/Whole_Proofs.v
theories/Whole2_Proofs.v
theories/Whole3_Proofs.v
theories/Props_Whole.v
theories/Hear_Spec.v
theories/Hear_Proofs.v
theories/Props_Hear.v
theories/Live_Spec.v
theories/Live_Proofs.v
theories/LiveW_Spec.v
theories/Live2_Proofs.v
theories/Props_Live.v
theories/Once_Proofs.v
theories/Once2_Proofs.v
theories/Once3_Proofs.v
theories/Props_Once.v
theories/Answer_Spec.v
theories/Answer_Proofs.v
theories/Props_Answer.v
theories/Serial_Spec.v
theories/Serial_Proofs.v
theories/Props_Serial.v
theories/Teach_Spec.v
theories/Teach_Proofs.v
theories/Teach2_Proofs.v
theories/Props_Teach.v
theories/Lock_Model.v
theories/Lock_Spec.v
theories/Lock_Proofs.v
theories/Props_Lock.v
theories/Reply_Spec.v
theories/Reply_Proofs.v
theories/Reply2_Proofs.v
theories/Reply3_Proofs.v
theories/Props_Reply.v
theories/Typed_Spec.v
theories/Typed_Proofs.v
theories/Props_Typed.v
theories/Known_Spec.v
theories/Known_Proofs.v
theories/Props_Known.v
theories/Range_Spec.v
theories/Range_Proofs.v
theories/Range2_Proofs.v
theories/Range3_Proofs.v
theories/Props_Range.v
theories/Cost_Model.v
theories/Cost_Spec.v
theories/Cost_Proofs.v
theories/Props_Cost.v
theories/Bound_Spec.v
theories/Bound_Proofs.v
theories/Props_Bound.v
theories/Gabor_Model.v
theories/Gabor_Spec.v
theories/Gabor_Proofs.v
theories/Props_Gabor.v
theories/Map32_Model.v
theories/Map32_Spec.v
theories/Map32_Proofs.v
theories/Props_Map32.v
theories/Plan_Spec.v
theories/Plan_Proofs.v
theories/Plan2_Proofs.v
theories/Props_Plan.v
theories/Tries_Spec.v
theories/Tries_Proofs.v
theories/Tries2_Proofs.v
theories/Props_Tries.v
theories/RepoTests.v
theories/Line_Proofs.v
theories/Line2_Proofs.v
theories/Props_Line.v
theories/Play_Model.v
theories/Play_Spec.v
theories/Play_Proofs.v
theories/Play2_Proofs.v
theories/Play3_Proofs.v
theories/Props_Play.v
theories/Ttt_Model.v
theories/Ttt_Spec.v
theories/Ttt_Proofs.v
theories/Ttt2_Proofs.v
theories/Ttt3_Proofs.v
theories/Props_Ttt.v
theories/Env64_Model.v
theories/Env64_Spec.v
theories/Env64_Proofs.v
theories/Props_Env64.v
theories/Vocab_Spec.v
theories/Vocab_Proofs.v
theories/Vocab2_Proofs.v
theories/Props_Vocab.v
theories/Props_Truth.v
theories/Want_Spec.v
theories/Want_Proofs.v
theories/Props_Want.v
theories/Number_Proofs.v
theories/Props_Number.v
theories/Luck_Spec.v
theories/Luck_Proofs.v
theories/Props_Luck.v
theories/Backed_Proofs.v
theories/Backed2_Proofs.v
theories/Props_Backed.v
theories/Props_Use.v
theories/Props_Use2.v
theories/Props_Use3.v
theories/Props_Lost.v
