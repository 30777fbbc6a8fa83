-Q theories Verif
theories/Model_Map.v
theories/Proof_Map.v
theories/Model_World.v
theories/Spec_World.v
theories/Proof_World.v
theories/Proof_World2.v
theories/Toy_World.v
theories/Props_World.v
theories/Model_FrontRear.v
theories/Spec_FrontRear.v
theories/Proof_FrontRear.v
theories/Props_FrontRear.v
theories/Model_Heap.v
theories/Spec_Heap.v
theories/Proof_Heap.v
theories/Props_Heap.v
theories/Model_Traj.v
theories/Spec_Traj.v
theories/Proof_Traj.v
theories/Props_Traj.v
theories/Model_Params.v
theories/Spec_Params.v
theories/Proof_Params.v
theories/Props_Params.v
theories/Model_Angle.v
theories/Spec_Angle.v
theories/Proof_Angle.v
theories/Props_Angle.v
theories/Model_Goal.v
theories/Spec_Goal.v
theories/Proof_Goal.v
theories/Props_Goal.v
theories/Model_Eval.v
theories/Spec_Eval.v
theories/Proof_Eval.v
theories/Toy_Eval.v
theories/Props_Eval.v
theories/Model_Ltl.v
theories/Spec_Ltl.v
theories/Proof_Ltl.v
theories/Props_Ltl.v
theories/Base_Real.v
theories/Model_SafeDist.v
theories/Spec_SafeDist.v
theories/Proof_SafeDist.v
theories/Props_SafeDist.v
theories/Base_Geom.v
theories/Model_Line.v
theories/Spec_Line.v
theories/Proof_Line.v
theories/Props_Line.v
theories/Props_Line2.v
theories/Model_Shape.v
theories/Spec_Shape.v
theories/Props_Shape.v
theories/Model_Frenet.v
theories/Spec_Frenet.v
theories/Proof_Frenet.v
theories/Props_Frenet.v
theories/Model_Dynamic.v
theories/Spec_Dynamic.v
theories/Props_Dynamic.v
theories/Base_Ext.v
theories/Toy_Road.v
theories/Model_IDM.v
theories/Spec_IDM.v
theories/Proof_IDM.v
theories/Props_IDM.v
theories/Model_PlanView.v
theories/Spec_PlanView.v
theories/Proof_PlanView.v
theories/Props_PlanView.v
theories/Example_Fresnel.v
theories/Model_Prediction.v
theories/Spec_Prediction.v
theories/Props_Prediction.v
theories/Proof_FrontRear2.v
theories/Model_LaneChange.v
theories/Spec_LaneChange.v
theories/Proof_LaneChange.v
theories/Toy_Lanes.v
theories/Props_LaneChange.v
theories/Model_Mobil.v
theories/Spec_Mobil.v
theories/Proof_Mobil.v
theories/Proof_Mobil2.v
theories/Props_Mobil.v
theories/Model_Intersection.v
theories/Spec_Intersection.v
theories/Props_Intersection.v
theories/Model_Distribution.v
theories/Props_Distribution.v
theories/Model_Stochastic.v
theories/Spec_Stochastic.v
theories/Props_Stochastic.v
theories/Model_ObserverParam.v
theories/Props_ObserverParam.v
theories/Model_Roadgraph.v
theories/Spec_Roadgraph.v
theories/Spec_Roadgraph2.v
theories/Proof_Roadgraph.v
theories/Proof_Roadgraph2.v
theories/Proof_Roadgraph3.v
theories/Model_RoadSearch.v
theories/Spec_RoadSearch.v
theories/Proof_RoadSearch.v
theories/Proof_RoadSearch2.v
theories/Toy_Map.v
theories/Props_Roadgraph.v
theories/Props_RoadSearch.v
theories/Model_Corridor.v
theories/Spec_Corridor.v
theories/Proof_Corridor.v
theories/Proof_Corridor2.v
theories/Proof_Corridor3.v
theories/Props_Corridor.v
theories/Toy_Corridor.v
theories/Props_Corridor2.v
theories/Model_Primitives.v
theories/Props_Primitives.v
theories/Props_Macro.v
theories/Model_RSS.v
theories/Props_RSS.v
theories/Props_SafetyPolygon.v
theories/Props_RssBehavior.v
theories/Model_Labels.v
theories/Props_Labels.v
theories/Model_StaticDist.v
theories/Props_StaticDist.v
theories/Model_Benchmark.v
theories/Proof_Benchmark.v
theories/Proof_BenchMerge.v
theories/Model_BenchRun.v
theories/Proof_BenchRun.v
theories/Props_Benchmark.v
theories/Props_BenchFiles.v
theories/Model_Pickle.v
theories/Props_Pickle.v
theories/Model_Runtime.v
theories/Proof_Frame.v
theories/Spec_Runtime.v
theories/Proof_Scenario.v
theories/Props_Scenario.v
theories/Proof_Runtime.v
theories/Props_Runtime.v
theories/Model_Analyzer.v
theories/Proof_Analyzer.v
theories/Props_Analyzer.v
theories/Model_ScenGen.v
theories/Spec_ScenGen.v
theories/Proof_ScenGen.v
theories/Proof_Overlap.v
theories/Props_ScenGen.v
theories/Model_Readers.v
theories/Props_Readers.v
theories/Model_Dataset.v
theories/Spec_Dataset.v
theories/Proof_Dataset.v
theories/Proof_Window.v
theories/Props_Dataset.v
theories/Props_Decompose.v
theories/Model_PyParams.v
theories/Spec_PyParams.v
theories/Proof_PyAccess.v
theories/Proof_PyGet.v
theories/Proof_PyConv.v
theories/Proof_PyCond.v
theories/Proof_PyFind.v
theories/Proof_PyAppend.v
theories/Props_PyAccess.v
theories/Props_PyConv.v
theories/Props_PyMerge.v
theories/Model_Ease.v
theories/Spec_Ease.v
theories/Props_Ease.v
theories/Model_UniformGen.v
theories/Props_UniformGen.v
theories/Props_IDMLeader.v
theories/Model_Xodr.v
theories/Spec_Xodr.v
theories/Proof_Xodr.v
theories/Proof_XodrAttr.v
theories/Props_Xodr.v
theories/Props_XodrReal.v
theories/Model_MapQuery.v
theories/Spec_MapQuery.v
theories/Proof_MapQuery.v
theories/Toy_MapQuery.v
theories/Props_MapQuery.v
theories/Model_Determ.v
theories/Props_Determ.v
theories/Model_Dumper.v
theories/Props_Dumper.v
theories/Model_Viewer.v
theories/Props_Camera.v
theories/Props_Picture.v
theories/Model_Video.v
theories/Props_Video.v
theories/Model_Threaded.v
theories/Props_Threaded.v
theories/Model_Renderer.v
theories/Props_Renderer.v
theories/Model_ModelReaders.v
theories/Spec_ModelReaders.v
theories/Proof_ModelReaders.v
theories/Props_ModelReaders.v
theories/Model_Pygame.v
theories/Props_Pygame.v
theories/Model_GeomPickle.v
theories/Props_GeomPickle.v
theories/Model_GoalShape.v
theories/Props_GoalShape.v
theories/Model_RssWorld.v
theories/Props_RssWorld.v
theories/Model_RoadPoly.v
theories/Props_RoadPoly.v
theories/Model_XodrMap.v
theories/Props_XodrMap.v
theories/Model_Curvature.v
theories/Spec_Curvature.v
theories/Proof_Curvature.v
theories/Props_Curvature.v
theories/Model_DebugDraw.v
theories/Props_DebugDraw.v
theories/Model_PolyLines.v
theories/Props_PolyLines.v
theories/Model_FixedLane.v
theories/Props_FixedLane.v
theories/Model_LaneGoal.v
theories/Props_LaneGoal.v
theories/Model_MapGraph.v
theories/Props_MapGraph.v
theories/Model_Fresnel.v
theories/Proof_Fresnel.v
theories/Proof_Fresnel2.v
theories/Proof_Fresnel3.v
theories/Proof_Fresnel4.v
theories/Proof_Fix.v
theories/Proof_Fresnel5.v
theories/Proof_Fresnel6.v
theories/Proof_Fresnel7.v
theories/Props_Fresnel.v
theories/Model_StdShapes.v
theories/Spec_StdShapes.v
theories/Props_StdShapes.v
theories/Model_MacroEq.v
theories/Props_MacroEq.v
