-Q theories Verif

theories/Search_Model.v
theories/Search_Spec.v
theories/Search_Proofs.v
theories/Search_Props.v
theories/Bound_Model.v
theories/Bound_Spec.v
theories/Bound_Proofs.v
theories/Bound_Proofs2.v
theories/Bound_Proofs3.v
theories/Bound_Props.v
theories/NkGraph_Model.v
theories/NkGraph_Spec.v
theories/NkGraph_Proofs.v
theories/Sp_Oracle.v
theories/Prm_Model.v
theories/Prm_Spec.v
theories/PrmQuery_Proofs.v
theories/PrmFc_Proofs.v
theories/PrmNn_Proofs.v
theories/PrmAnn_Inst.v
theories/PrmRp_Proofs.v
theories/PrmEx.v
theories/PrmFc_Props.v
theories/PrmNn_Props.v
theories/PrmRp_Props.v
theories/Ann_Model.v
theories/Ann_Props.v
theories/Geom_Model.v
theories/Geom_Spec.v
theories/Geom_Proofs.v
theories/Geom_Props.v
theories/Gray_Model.v
theories/Gray_Spec.v
theories/Gray_Proofs.v
theories/Gray_Proofs2.v
theories/Gray_Proofs3.v
theories/Gray_Proofs4.v
theories/Gray_Proofs5.v
theories/Gray_Props.v
theories/Sampler_Model.v
theories/Sampler_Props.v
theories/Plane.v
theories/Sat_Model.v
theories/Sat_Props.v
theories/Space.v
theories/Box_Model.v
theories/Box_Props.v
theories/Bag_Model.v
theories/Bag_Props.v
theories/Interp_Model.v
theories/Interp_Props.v
theories/Anytime_Model.v
theories/Anytime_Props.v
theories/Strips.v
theories/Turtle_Model.v
theories/Turtle_Props.v
theories/Kuka_Model.v
theories/Kuka_Props.v
theories/Sched_Model.v
theories/Sched_Props.v
theories/Deploy_Props.v
theories/Trial_Model.v
theories/Trial_Props.v
theories/Stretch_Props.v
theories/Net_Spec.v
theories/Net_Proofs.v
theories/Net_Props.v
theories/NetEnv_Props.v
theories/Bin_Model.v
theories/Bin_Props.v
theories/BinEnv_Props.v
theories/Agg_Model.v
theories/Agg_Props.v
theories/Cover_Model.v
theories/Cover_Props.v
theories/World_Model.v
theories/World_Props.v
theories/WorldCheck_Props.v
theories/WorldPlace_Props.v
theories/Pose.v
theories/Prim_Model.v
theories/PrimGrasp_Props.v
theories/Prim_Props.v
theories/PrimInsert_Props.v
theories/PrimEx_Props.v
theories/PrimTask_Props.v
theories/PrimTaskEx_Props.v
theories/Prob.v
theories/Vc_Props.v
theories/EpsNet_Props.v
theories/NetProb_Props.v
theories/Tail_Props.v
theories/KnnProb_Props.v
theories/NarrowRun_Model.v
theories/NarrowRun_Props.v
theories/Stream_Model.v
theories/Stream_Props.v
theories/StreamWorld_Props.v
theories/Log_Model.v
theories/Log_Props.v
theories/LogPlot_Props.v
theories/RepoTests.v
theories/Anim_Model.v
theories/Anim_Props.v
theories/RadiusProb_Props.v
theories/Exec_Model.v
theories/Exec_Props.v
theories/Corner_Model.v
theories/Corner_Props.v
theories/SamplerHoles_Model.v
theories/SamplerHoles_Props.v
theories/Main_Model.v
theories/Main_Props.v
theories/MainNum_Props.v
theories/Count_Model.v
theories/Count_Props.v
theories/Submit_Model.v
theories/Submit_Props.v
theories/Job_Model.v
theories/Job_Props.v
theories/Shell_Model.v
theories/Shell_Props.v
theories/AggStat_Model.v
theories/AggStat_Props.v
theories/KukaWorld_Model.v
theories/KukaWorld_Props.v
theories/JobErr_Props.v
theories/Notebook_Model.v
theories/Notebook_Spec.v
theories/Notebook_Proofs.v
theories/Notebook_Proofs2.v
theories/Notebook_Props.v
theories/More_Props.v
theories/NotebookBatch_Props.v
theories/SortAnn_Model.v
theories/SortAnn_Props.v
theories/NarrowTab_Model.v
theories/NarrowTab_Spec.v
theories/NarrowTab_Proofs.v
theories/NarrowTab_Props.v
theories/RadTab_Model.v
theories/RadTab_Props.v
theories/PlotRes_Model.v
theories/PlotRes_Props.v
theories/Scatter_Model.v
theories/Scatter_Props.v
theories/Mode_Model.v
theories/Mode_Props.v
theories/Lib_Model.v
theories/Lib_Props.v
theories/Fig_Model.v
theories/Fig_Props.v
theories/Fluent_Model.v
theories/Fluent_Props.v
theories/Exist_Props.v
theories/Design_Model.v
theories/Design_Props.v
