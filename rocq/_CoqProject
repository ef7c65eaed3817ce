-Q theories Verif

theories/M_Base.v
theories/M_Float.v
theories/M_Rng.v
theories/M_Geom.v
theories/M_Offset.v
theories/M_Node.v
theories/M_Decompose.v
theories/M_Split.v
theories/M_Hdb.v
theories/Spec.v
theories/P_Base.v
theories/P_Float.v
theories/P_Decompose.v
theories/P_Split.v
theories/P_Hdb.v
theories/P_HdbIns.v
theories/P_HdbLoad.v
theories/P_HdbQuery.v
theories/P_Tame.v
theories/M_Knn.v
theories/P_Knn.v
theories/Toy.v
theories/P_Node.v
theories/Spec_Hdb.v
theories/P_HdbHist.v
theories/Properties_Core.v
theories/Properties_Hdb.v
theories/M_Lnr.v
theories/Spec_Lnr.v
theories/P_Lnr.v
theories/Properties_Lnr.v
theories/M_Homotopy.v
theories/M_Relate.v
theories/Spec_Relate.v
theories/P_Homotopy.v
theories/P_Relate.v
theories/Toy_Box.v
theories/Properties_Relate.v
theories/M_Deform.v
theories/M_Constrain.v
theories/P_Db.v
theories/M_ConstDP.v
theories/P_Bag.v
theories/P_Constrain.v
theories/P_Deform.v
theories/Spec_Deform.v
theories/P_Conflict.v
theories/Spec_ConstDP.v
theories/P_ConstDP.v
theories/P_Aggregate.v
theories/P_Simplify.v
theories/P_Class.v
theories/Properties_ConstDP.v
theories/Properties_Constrain.v
theories/Properties_Conflict.v
theories/M_Concur.v
theories/P_Concur.v
theories/M_Queue.v
theories/Spec_Queue.v
theories/P_Queue.v
theories/Properties_Concur.v
theories/M_Text.v
theories/M_IO.v
theories/Spec_Text.v
theories/Spec_IO.v
theories/Spec_Run.v
theories/P_Text.v
theories/P_IO.v
theories/P_Run.v
theories/Properties_Text.v
theories/Properties_IO.v
theories/P_FSub.v
theories/M_Select.v
theories/Spec_Select.v
theories/P_Select.v
theories/Properties_Select.v
theories/M_BySize.v
theories/Spec_BySize.v
theories/P_BySize.v
theories/M_Slice.v
theories/P_Slice.v
theories/Properties_Merge.v
theories/P_DpTree.v
theories/Properties_DP.v
theories/Spec_Out.v
theories/P_Out.v
theories/Properties_Run.v
theories/P_Ref.v
theories/P_Twin.v
theories/Properties_Twin.v
theories/Properties_Chord.v
theories/Spec_Docs.v
theories/Spec_Modes.v
theories/P_Docs.v
theories/P_Modes.v
theories/Properties_Docs.v
theories/Properties_Modes.v
theories/Properties_Near.v
theories/Properties_Ids.v
theories/M_Wkt.v
theories/Properties_Wkt.v
theories/Spec_Sym.v
theories/Properties_Sym.v
theories/P_ClassConf.v
theories/Properties_ClassConf.v
theories/M_Ctx.v
theories/Spec_Ctx.v
theories/P_Ctx.v
theories/Properties_Ctx.v
theories/M_Alias.v
theories/Spec_Alias.v
theories/P_Alias.v
theories/Properties_Alias.v
theories/M_Views.v
theories/Spec_Views.v
theories/P_Views.v
theories/Properties_Views.v
theories/Spec_Plane.v
theories/P_Plane.v
theories/Toy_Plane.v
theories/Properties_Plane.v
theories/P_Jordan.v
theories/Spec_Apart.v
theories/Properties_Apart.v
theories/Properties_Far.v
theories/M_Program.v
theories/Properties_Program.v
theories/M_HdbMem.v
theories/Spec_HdbMem.v
theories/P_HdbMem.v
theories/P_HdbMemRm.v
theories/Properties_HdbMem.v
theories/Spec_Dist.v
theories/P_Round.v
theories/P_Dist.v
theories/P_Sed.v
theories/Properties_Dist.v
theories/P_HdbDepth.v
theories/Spec_HdbShape.v
theories/P_HdbShape.v
theories/Properties_HdbShape.v
theories/Spec_Knn.v
theories/P_KnnLimit.v
theories/Properties_Knn.v
theories/Spec_Path.v
theories/P_Path.v
theories/Properties_Path.v
theories/M_Files.v
theories/Properties_Files.v
theories/Spec_Move.v
theories/P_Move.v
theories/P_MovePlane.v
theories/Properties_Move.v
theories/M_Report.v
theories/Spec_Report.v
theories/P_Report.v
theories/Properties_Report.v
theories/Spec_Exact.v
theories/P_Exact.v
theories/Properties_Exact.v
theories/Spec_Whole.v
theories/P_Whole.v
theories/Properties_Whole.v
theories/Spec_Class.v
theories/P_WholeClass.v
theories/Properties_WholeClass.v
theories/P_Rename.v
theories/Properties_ClassFiles.v
theories/Spec_MoveClass.v
theories/P_MoveClass.v
theories/Properties_MoveClass.v
theories/M_KnnMem.v
theories/Spec_KnnMem.v
theories/P_KnnMem.v
theories/Properties_KnnMem.v
theories/Spec_ApartClass.v
theories/P_ApartClass.v
theories/Properties_ApartClass.v
