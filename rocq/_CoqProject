-Q theories Verif
theories/Num.v
theories/NumFacts.v
theories/Base.v
theories/Axis.v
theories/Calc.v
theories/AxisSpec.v
theories/AxisProofs.v
theories/AxisProofs2.v
theories/AxisMain.v
theories/Props_Axis.v
theories/Content.v
theories/Fill.v
theories/FillSpec.v
theories/FillProofs.v
theories/FillProofs2.v
theories/FillProofs3.v
theories/FillMain.v
theories/Props_Fill.v
theories/Tree.v
theories/Instr.v
theories/InstrSpec.v
theories/InstrProofs.v
theories/Props_Instr.v
theories/Elem.v
theories/HistFill.v
theories/HistSpec.v
theories/HistFillProofs.v
theories/HistFillMain.v
theories/HistFillMain2.v
theories/HistFillMain3.v
theories/HistFillMain4.v
theories/KeySpec.v
theories/KeyMain.v
theories/Props_Hist.v
theories/Order.v
theories/Expr.v
theories/ExprSpec.v
theories/ExprGood.v
theories/ExprFacts.v
theories/ExprLower.v
theories/ExprAlg.v
theories/ExprLogic.v
theories/ExprMain.v
theories/ExprPlain.v
theories/ExprShape.v
theories/ExprPoly.v
theories/ExprComm.v
theories/ExprDefs.v
theories/Props_Expr.v
theories/HistAlg.v
theories/AlgSpec.v
theories/HistAlgProofs.v
theories/HistAlgMain.v
theories/Json.v
theories/JsonProofs.v
theories/CompareProofs.v
theories/Props_Alg.v
theories/Heap.v
theories/HeapSpec.v
theories/HeapProofs.v
theories/HeapAdd.v
theories/HeapMain.v
theories/HeapMain2.v
theories/HeapDerive.v
theories/HeapDeriveProofs.v
theories/Props_Heap.v
theories/Nd.v
theories/NdProofs.v
theories/Proj.v
theories/ProjSpec.v
theories/ProjProofs.v
theories/ProjMain.v
theories/ProjMain2.v
theories/ProjFill.v
theories/ProjLaws.v
theories/ProjGroup.v
theories/ProjDrop.v
theories/ProjE2E.v
theories/Props_Proj.v
theories/Select.v
theories/SelSpec.v
theories/SelAxis.v
theories/SelAxis2.v
theories/Remap.v
theories/SelContent.v
theories/SelMain.v
theories/SelFill.v
theories/SelHist.v
theories/SelOr.v
theories/SelKeys.v
theories/Props_Select.v
theories/Rebin.v
theories/RebinSpec.v
theories/RebinAxis.v
theories/RebinAxis2.v
theories/RebinContent.v
theories/RebinMain.v
theories/RebinFill.v
theories/RebinLaws.v
theories/Props_Rebin.v
theories/Table.v
theories/TableSpec.v
theories/TableProofs.v
theories/TableNorm.v
theories/TableStats.v
theories/FracProofs.v
theories/Props_Table.v
theories/Glob.v
theories/Book.v
theories/BookSpec.v
theories/GlobProofs.v
theories/BookProofs.v
theories/BookPaths.v
theories/BookIter.v
theories/Props_Book.v
theories/BookFill.v
theories/BookFillSpec.v
theories/BookFillProofs.v
theories/Props_BookFill.v
theories/BookHeap.v
theories/BookHeapSpec.v
theories/BookHeapProofs.v
theories/BookHeapAdd.v
theories/BookHeapFrame.v
theories/BookHeapActs.v
theories/BookHeapMain.v
theories/BookHeapIadd.v
theories/BookHeapSamples.v
theories/Props_BookHeap.v
theories/BookHeapFill.v
theories/Props_BookHeap2.v
theories/Props_BookHeap3.v
theories/BookHeapTotal.v
theories/BookHeapITotal.v
theories/Props_BookTotal.v
theories/Props_BookTotal2.v
theories/Pandas.v
theories/PandasSpec.v
theories/PandasProofs.v
theories/PandasMain.v
theories/Props_Pandas.v
theories/Root.v
theories/RootSpec.v
theories/RootProofs.v
theories/Props_Root.v
theories/Spark.v
theories/SparkSpec.v
theories/SparkProofs.v
theories/SparkMain.v
theories/Props_Spark.v
theories/Shared.v
theories/SharedProofs.v
theories/SharedSpec.v
theories/SharedMain.v
theories/Props_Shared.v
theories/Vega.v
theories/VegaSpec.v
theories/VegaProofs.v
theories/VegaGroups.v
theories/VegaAxis.v
theories/VegaMain.v
theories/VegaData.v
theories/Props_Vega.v
theories/VegaEnc.v
theories/VegaEncProofs.v
theories/Props_VegaEnc.v
theories/VegaComb.v
theories/VegaCombSpec.v
theories/VegaCombProofs.v
theories/VegaCombMain.v
theories/Props_VegaComb.v
theories/VegaHeatSpec.v
theories/VegaHeat.v
theories/Props_VegaHeat.v
theories/ExprNames.v
theories/HistNew.v
theories/HistNewSpec.v
theories/HistNewProofs.v
theories/Props_HistNew.v
theories/ExprAcceptSpec.v
theories/ExprAccept.v
theories/Props_Accept.v
theories/Access.v
theories/AccessSpec.v
theories/AccessProofs.v
theories/Props_Access.v
theories/WrittenSpec.v
theories/WrittenProofs.v
theories/Props_Written.v
theories/Props_Negation.v
theories/BookTree.v
theories/BookTreeSpec.v
theories/BookTreeProofs.v
theories/BookTreeJson.v
theories/BookTreeCompare.v
theories/BookTreeGroup.v
theories/Props_BookTree.v
theories/Interval.v
theories/IntervalProofs.v
theories/Props_Interval.v
theories/Meta.v
theories/MetaSpec.v
theories/MetaProofs.v
theories/Props_Meta.v
theories/BookDest.v
theories/Props_BookDest.v
theories/HistFluent.v
theories/Props_Fluent.v
theories/Lib.v
theories/LibSpec.v
theories/LibProofs.v
theories/Props_Lib.v
theories/FillMem.v
theories/FillMemSpec.v
theories/FillMemProofs.v
theories/FillMemMain.v
theories/FillMemFrame.v
theories/Props_FillMem.v
theories/FillR.v
theories/FillRSpec.v
theories/FillRProofs.v
theories/RoundProofs.v
theories/FillRMain.v
theories/Props_Round.v
theories/LibFunSpec.v
theories/LibFun.v
theories/Props_LibFun.v
theories/PyCmp.v
theories/PyCmpSpec.v
theories/PyCmpProofs.v
theories/Props_PyCmp.v
theories/AxisAttr.v
theories/AxisAttrSpec.v
theories/AxisWidth.v
theories/AxisAttrProofs.v
theories/Props_AxisAttr.v
theories/AlgR.v
theories/AlgRSpec.v
theories/AlgRProofs.v
theories/AlgRMain.v
theories/Props_AlgR.v
theories/Print.v
theories/PrintSpec.v
theories/PrintProofs.v
theories/PrintMain.v
theories/Props_Print.v
theories/Repr.v
theories/Props_Repr.v
theories/SliceSpec.v
theories/Props_Slice.v
theories/Shape.v
theories/Props_Shape.v
theories/BookDict.v
theories/Props_BookDict.v
theories/ReprBook.v
theories/Props_ReprBook.v
theories/Props_SparkFar.v
theories/Props_NormSplit.v
theories/Props_Near.v
theories/Props_Threshold.v
