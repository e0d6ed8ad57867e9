-Q theories Verif
theories/Common.v
theories/UnionFind_Model.v
theories/UnionFind_Spec.v
theories/UnionFind_Proofs.v
theories/UnionFind_Props.v
theories/Math_Model.v
theories/Math_Spec.v
theories/Math_Proofs.v
theories/Math_Props.v
theories/Layers_Model.v
theories/Layers_Proofs.v
theories/Layers_Props.v
theories/Geo_Model.v
theories/Slicer_Model.v
theories/Slicer_Spec.v
theories/Slicer_Proofs.v
theories/SlicerMesh_Proofs.v
theories/Slicer_Props.v
theories/Adaptive_Model.v
theories/Adaptive_Proofs.v
theories/Adaptive_Props.v
theories/Box_Model.v
theories/Box_Props.v
theories/LayerVector_Model.v
theories/LayerVector_Props.v
theories/Geo_Spec.v
theories/LinearAlg_Model.v
theories/LinearAlg_Props.v
theories/Grid_Model.v
theories/Grid_Proofs.v
theories/Grid_Props.v
theories/Order_Model.v
theories/Order_Props.v
theories/PathGraph_Model.v
theories/PathGraph_Props.v
theories/PathOrder_Model.v
theories/PathOrder_Props.v
theories/GCode_Model.v
theories/GCode_Spec.v
theories/GCode_Pos.v
theories/GCode_Ext.v
theories/GCode_Window.v
theories/GCode_Props.v
theories/TextNum_Model.v
theories/TextNum_Spec.v
theories/TextNum_Props.v
theories/GCode_Speed.v
theories/Heat_Model.v
theories/Heat_Spec.v
theories/Heat_Props.v
theories/Pipe_Model.v
theories/Pipe_Spec.v
theories/Pipe_Props.v
theories/Par_Model.v
theories/Par_Spec.v
theories/Par_Chunks.v
theories/Par_Props.v
theories/Preheat_Model.v
theories/Preheat_Spec.v
theories/Preheat_Props.v
theories/Progress_Model.v
theories/Progress_Spec.v
theories/Progress_Props.v
theories/TempInsert_Model.v
theories/TempInsert_Spec.v
theories/TempInsert_Props.v
theories/LayerBuffer_Model.v
theories/LayerBuffer_Props.v
theories/Cool_Model.v
theories/Cool_Spec.v
theories/Cool_Props.v
theories/Settings_Model.v
theories/Settings_Props.v
theories/CmdLine_Model.v
theories/CmdLine_Props.v
theories/Template_Model.v
theories/Template_Props.v
theories/ExtruderOrder_Model.v
theories/ExtruderOrder_Props.v
theories/PrimeTower_Model.v
theories/PrimeTower_Props.v
theories/Simplify_Model.v
theories/Simplify_Props.v
theories/Coast_Model.v
theories/Coast_Spec.v
theories/Coast_Props.v
theories/Ooze_Model.v
theories/Ooze_Spec.v
theories/Ooze_Props.v
theories/Carve_Model.v
theories/Carve_Spec.v
theories/Carve_Props.v
theories/Mesh_Model.v
theories/Mesh_Spec.v
theories/Mesh_Proofs.v
theories/Mesh_Props.v
theories/MST_Model.v
theories/MST_Spec.v
theories/MST_Proofs.v
theories/MST_Props.v
theories/Inset_Model.v
theories/Inset_Spec.v
theories/Inset_Proofs.v
theories/Inset_Region.v
theories/Inset_Forest.v
theories/Inset_Graph.v
theories/Inset_Props.v
theories/Wall_Model.v
theories/Wall_Spec.v
theories/Wall_Proofs.v
theories/Wall_Props.v
theories/PolyStitch_Model.v
theories/PolyStitch_Spec.v
theories/PolyStitch_Proofs.v
theories/PolyStitch_Props.v
theories/GradFlow_Model.v
theories/GradFlow_Spec.v
theories/GradFlow_Proofs.v
theories/GradFlow_Props.v
theories/Estimate_Model.v
theories/Estimate_Spec.v
theories/Estimate_Proofs.v
theories/Estimate_Props.v
theories/Beading_Model.v
theories/Beading_Spec.v
theories/Beading_Proofs.v
theories/Beading_Props.v
theories/OpenStitch_Model.v
theories/OpenStitch_Spec.v
theories/OpenStitch_Proofs.v
theories/OpenStitchExt_Proofs.v
theories/OpenStitch_Props.v
theories/Overflow_Model.v
theories/Overflow_Spec.v
theories/Overflow_Proofs.v
theories/Overflow_Props.v
theories/Mono_Model.v
theories/Mono_Spec.v
theories/Mono_Proofs.v
theories/Mono_Props.v
theories/Skin_Model.v
theories/Skin_Spec.v
theories/Skin_Props.v
theories/Gradual_Model.v
theories/Gradual_Spec.v
theories/Gradual_Props.v
theories/Combine_Model.v
theories/Combine_Spec.v
theories/Combine_Props.v
theories/LineInfill_Model.v
theories/LineInfill_Spec.v
theories/LineInfill_Props.v
theories/Zigzag_Model.v
theories/Zigzag_Spec.v
theories/Zigzag_Props.v
theories/Connect_Model.v
theories/Connect_Spec.v
theories/Connect_Props.v
theories/Pattern_Model.v
theories/Pattern_Spec.v
theories/Pattern_Props.v
theories/Combing_Model.v
theories/Combing_Spec.v
theories/Combing_Props.v
theories/Lightning_Model.v
theories/Lightning_Spec.v
theories/Lightning_Props.v
theories/Grow_Model.v
theories/Grow_Spec.v
theories/Grow_Props.v
theories/Travel_Model.v
theories/Travel_Spec.v
theories/Travel_Props.v
theories/Stl_Model.v
theories/Stl_Spec.v
theories/Stl_Props.v
theories/Obj_Model.v
theories/Obj_Spec.v
theories/Obj_Props.v
theories/Fuzzy_Model.v
theories/Fuzzy_Spec.v
theories/Fuzzy_Props.v
theories/Voxel_Model.v
theories/Voxel_Spec.v
theories/Voxel_Props.v
theories/Interlock_Model.v
theories/Interlock_Spec.v
theories/Interlock_Props.v
theories/EmptyFirst_Model.v
theories/EmptyFirst_Spec.v
theories/EmptyFirst_Props.v
theories/PrintInfo_Model.v
theories/PrintInfo_Spec.v
theories/PrintInfo_Props.v
theories/InfillSupport_Model.v
theories/InfillSupport_Spec.v
theories/InfillSupport_Props.v
