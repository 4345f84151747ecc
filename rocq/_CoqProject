-Q theories Verif
theories/Py.v
theories/Tools.v
theories/Lists.v
theories/Spec_Tools.v
theories/ToolsProofs.v
theories/Props_Tools.v
theories/Expr.v
theories/RSum.v
theories/Mat.v
theories/Core.v
theories/ExprProofs.v
theories/MatProofs.v
theories/Spec_Core.v
theories/Elim.v
theories/StructProofs.v
theories/BlockProofs.v
theories/Spec_Ops.v
theories/OpsProofs.v
theories/Refutations.v
theories/Props_Struct.v
theories/Spec_Connect.v
theories/ConnectProofs.v
theories/ConnectExamples.v
theories/Props_Connect.v
theories/PowerProofs.v
theories/Props_Power.v
theories/Spec_Split.v
theories/SplitProofs.v
theories/SplitProofs2.v
theories/Props_Split.v
theories/Spec_Reduce.v
theories/ReduceProofs.v
theories/ReduceExamples.v
theories/Props_Reduce.v
theories/Spec_Add.v
theories/AddProofs.v
theories/Props_Add.v
theories/Spec_Calculus.v
theories/Calculus.v
theories/Deriv.v
theories/CalculusProofs.v
theories/CalculusExamples.v
theories/Props_Calculus.v
theories/Subs.v
theories/Spec_Subs.v
theories/SubsProofs.v
theories/Props_Subs.v
theories/Method.v
theories/Spec_Method.v
theories/Separable.v
theories/TempProofs.v
theories/MethodProofs.v
theories/MethodEnergy.v
theories/MethodInit.v
theories/MethodBalance.v
theories/MethodExamples.v
theories/Props_Method.v
theories/Numeric.v
theories/Spec_Numeric.v
theories/NumericProofs.v
theories/NumericUpdate.v
theories/NumericStep.v
theories/NumericRun.v
theories/NumericUpdateOk.v
theories/NumericSim.v
theories/NumericExamples.v
theories/Props_Numeric.v
theories/Graph.v
theories/Spec_Graph.v
theories/GraphProofs.v
theories/GraphAnalysis.v
theories/GraphDeclared.v
theories/GraphReach.v
theories/GraphKirchhoff.v
theories/GraphBuild.v
theories/GraphConnect.v
theories/GraphDatum.v
theories/GraphExamples.v
theories/Props_Graph.v
theories/Netlist.v
theories/Spec_Netlist.v
theories/NetlistProofs.v
theories/Props_Netlist.v
theories/Pwl.v
theories/Spec_Pwl.v
theories/PwlProofs.v
theories/Props_Pwl.v
theories/Dict.v
theories/Spec_Dict.v
theories/DictProofs.v
theories/Props_Dict.v
theories/Merge.v
theories/Spec_Merge.v
theories/MergeProofs.v
theories/MergeBehave.v
theories/MergeSteps.v
theories/MergeExamples.v
theories/Props_Merge.v
theories/H5.v
theories/Spec_H5.v
theories/H5Window.v
theories/H5Chunk.v
theories/H5Store.v
theories/H5Seqs.v
theories/H5Examples.v
theories/Props_H5.v
theories/Waves.v
theories/Spec_Waves.v
theories/WavesProofs.v
theories/WavesFloat.v
theories/Props_Waves.v
theories/Objects.v
theories/Spec_Copy.v
theories/CopyProofs.v
theories/SaveProofs.v
theories/CopyExamples.v
theories/Props_Copy.v
theories/Data.v
theories/Spec_Data.v
theories/DataSim.v
theories/DataRead.v
theories/DataBalance.v
theories/DataExamples.v
theories/Props_Data.v
theories/SP.v
theories/Spec_SP.v
theories/SPBase.v
theories/SPChain.v
theories/SPStep.v
theories/SPSerial.v
theories/SPParallel.v
theories/SPAssemble.v
theories/SPExamples.v
theories/Props_SP.v
theories/Signal.v
theories/Spec_Signal.v
theories/SignalProofs.v
theories/SignalBounds.v
theories/Props_Signal.v
theories/Cpp.v
theories/Spec_Cpp.v
theories/CppProofs.v
theories/CppRefine.v
theories/CppBuild.v
theories/CppRate.v
theories/NumericBuild.v
theories/CppExamples.v
theories/Props_Cpp.v
theories/Frac.v
theories/Spec_Frac.v
theories/FracNames.v
theories/FracProofs.v
theories/FracDer.v
theories/FracControl.v
theories/FracExamples.v
theories/Props_Frac.v
theories/SubsInv.v
theories/Spec_SubsInv.v
theories/SubsInvProofs.v
theories/Props_SubsInv.v
theories/Filter.v
theories/Spec_Filter.v
theories/FilterProofs.v
theories/Props_Filter.v
theories/Beam.v
theories/Spec_Beam.v
theories/BeamProofs.v
theories/Props_Beam.v
