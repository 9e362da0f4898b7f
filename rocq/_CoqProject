-Q theories Verif
theories/Outcome.v
theories/DyadicModel.v
theories/DyadicSpec.v
theories/DyadicProofs.v
theories/DyadicProofs2.v
theories/DyadicProofs3.v
theories/DyadicLemmas.v
theories/LieObjModel.v
theories/LieTab.v
theories/LieBasis.v
theories/LieProd.v
theories/LieMult.v
theories/LieMaps.v
theories/LieVec.v
theories/Dual.v
theories/LieObjSpec.v
theories/LieOne.v
theories/Dexp.v
theories/LieTwo.v
theories/LieThree.v
theories/LieObj.v
theories/LieSim.v
theories/Prop_Dyadic.v
theories/Alg.v
theories/PowerSeries.v
theories/Series.v
theories/Shuffle.v
theories/Words.v
theories/Mem.v
theories/TensorModel.v
theories/TensorProofs.v
theories/TensorProofs2.v
theories/TensorProofs3.v
theories/TensorProofs4.v
theories/TensorProofs5.v
theories/WordSums.v
theories/TensorProofs6.v
theories/TensorProofs7.v
theories/TensorProofs8.v
theories/SparseModel.v
theories/SparseProofs.v
theories/TensorTop.v
theories/TensorTop2.v
theories/TensorTop3.v
theories/TensorLemmas.v
theories/TensorLemmas2.v
theories/TensorLemmas3.v
theories/Prop_Tensor.v
theories/IntervalModel.v
theories/IntervalProofs.v
theories/IntervalProofs2.v
theories/SegModel.v
theories/SegProofs.v
theories/SegProofs2.v
theories/SegProofs3.v
theories/IntervalLemmas.v
theories/Prop_Interval.v
theories/Mobius.v
theories/HallCount.v
theories/HallModel.v
theories/HallSpec.v
theories/HallTab.v
theories/HallDim.v
theories/HallProofs.v
theories/HallTrees.v
theories/HallLookup.v
theories/HallLemmas.v
theories/Prop_Hall.v
theories/BracketModel.v
theories/BracketProofs.v
theories/BracketCache.v
theories/LieSpec.v
theories/BracketSem.v
theories/BracketLemmas.v
theories/Prop_Bracket.v
theories/SmhModel.v
theories/SmhProofs.v
theories/SmhBuild.v
theories/SmhLemmas.v
theories/Prop_Smh.v
theories/L2tModel.v
theories/L2tProofs.v
theories/L2tBuild.v
theories/L2tLemmas.v
theories/Prop_L2t.v
theories/Dynkin.v
theories/T2lBuild.v
theories/T2lNorm.v
theories/T2lLemmas.v
theories/Prop_T2l.v
theories/CbhModel.v
theories/Cbh.v
theories/Prop_Cbh.v
theories/StreamModel.v
theories/StreamSpec.v
theories/StreamProofs.v
theories/StreamProofs2.v
theories/StreamProofs3.v
theories/StreamCtx.v
theories/StreamLemmas.v
theories/StreamEx.v
theories/StreamDense.v
theories/PwModel.v
theories/PwSpec.v
theories/PwProofs.v
theories/TvsSpec.v
theories/TvsProofs.v
theories/PwEx.v
theories/Prop_Pw.v
theories/Prop_Stream.v
theories/FnvModel.v
theories/FnvSpec.v
theories/FnvProofs.v
theories/FnvProofs2.v
theories/Prop_Basis.v
theories/CarrModel.v
theories/CarrSpec.v
theories/CarrProofs.v
theories/Prop_Carr.v
theories/PolyModel.v
theories/PolySpec.v
theories/PolyProofs.v
theories/PolyProofs2.v
theories/Prop_Poly.v
theories/HssModel.v
theories/HssProofs.v
theories/Prop_Hss.v
theories/KeyModel.v
theories/KeyProofs.v
theories/KeyProofs2.v
theories/Prop_Key.v
theories/HsModel.v
theories/HsProofs.v
theories/HsLemmas.v
theories/Prop_Hs.v
theories/MapsModel.v
theories/MapsProofs.v
theories/Prop_Maps.v
theories/SchemaModel.v
theories/SchemaProofs.v
theories/SchemaProofs2.v
theories/SchemaSpec.v
theories/Prop_Schema.v
theories/Prop_Adj.v
theories/LalModel.v
theories/LalBasis.v
theories/LalSparse.v
theories/LalFma.v
theories/LalTensor.v
theories/LalDense.v
theories/LalFun.v
theories/AntiModel.v
theories/AntiProofs.v
theories/LhModel.v
theories/LhSpec.v
theories/LhProofs.v
theories/LhLaws.v
theories/Prop_Free.v
theories/HallFree.v
theories/HallIndep.v
theories/ExpComm.v
theories/LieLaws.v
theories/GroupLaws.v
theories/Prop_Lie.v
theories/TickModel.v
theories/TickSpec.v
theories/TickProofs.v
theories/TickProofs2.v
theories/TickProofs3.v
theories/TickProofs4.v
theories/TickLemmas.v
theories/TickEx.v
theories/Prop_Tick.v
theories/DynModel.v
theories/DynProofs.v
theories/DynProofs2.v
theories/DynProofs3.v
theories/DynProofs4.v
theories/DynSpec.v
theories/DynProofs5.v
theories/DynProofs6.v
theories/DynLemmas.v
theories/DynProofs7.v
theories/DynLemmas2.v
theories/DynLemmas3.v
theories/DynEx.v
theories/Prop_Dyn.v
theories/ShufModel.v
theories/ShufSpec.v
theories/ShufKeys.v
theories/ShufFma.v
theories/ShufVec.v
theories/ShufObjSpec.v
theories/ShufObj.v
theories/ShufLaws.v
theories/Prop_Shuf.v
theories/LieObjLaws.v
theories/LieObjEx.v
theories/Prop_LieObj.v
theories/BatchModel.v
theories/BatchSpec.v
theories/BatchSim.v
theories/BatchProofs.v
theories/BatchTop.v
theories/BatchTop2.v
theories/BatchTop3.v
theories/Prop_Batch.v
theories/DataModel.v
theories/DataSpec.v
theories/DataProofs.v
theories/DataProofs2.v
theories/DataProofs3.v
theories/DataArr.v
theories/DataArr2.v
theories/DataTypes.v
theories/DataArr3.v
theories/DataWit.v
theories/Prop_Data.v
theories/DyadicMax.v
theories/StreamAlign.v
theories/IndexModel.v
theories/IndexSpec.v
theories/IndexProofs.v
theories/IndexTop.v
theories/IndexEx.v
theories/Prop_Index.v
theories/PackedModel.v
theories/PackedSpec.v
theories/PackedProofs.v
theories/PackedTop.v
theories/Prop_Packed.v
theories/SclModel.v
theories/SclSpec.v
theories/SclProofs.v
theories/SclOps.v
theories/SclVal.v
theories/SclRef.v
theories/SclTop.v
theories/Prop_Scl.v
theories/SimpModel.v
theories/SimpSpec.v
theories/SimpProofs.v
theories/SimpTop.v
theories/SimpEx.v
theories/Prop_Simp.v
theories/ArgModel.v
theories/ArgSpec.v
theories/ArgProofs.v
theories/ArgTop.v
theories/ArgMore.v
theories/ArgEx.v
theories/Prop_Arg.v
theories/SaModel.v
theories/SaSpec.v
theories/SaProofs.v
theories/SaTop.v
theories/SaMore.v
theories/SaEx.v
theories/Prop_Sa.v
theories/TkModel.v
theories/TkSpec.v
theories/TkProofs.v
theories/TkTop.v
theories/TkEx.v
theories/Prop_Tk.v
theories/LkModel.v
theories/LkSpec.v
theories/LkProofs.v
theories/LkHall.v
theories/LkEx.v
theories/Prop_Lk.v
theories/PsModel.v
theories/PsSpec.v
theories/PsProofs.v
theories/PsMeta.v
theories/PsEx.v
theories/Prop_Ps.v
theories/Prop_Pm.v
theories/PtModel.v
theories/PtSpec.v
theories/PtProofs.v
theories/PtRows.v
theories/PtSchema.v
theories/PtWhole.v
theories/PtEx.v
theories/Prop_Pt.v
theories/TpModel.v
theories/TpSpec.v
theories/TpProofs.v
theories/TpEx.v
theories/Prop_Tp.v
theories/PtPad.v
theories/PtPadWhole.v
theories/Prop_PtPad.v
theories/SfModel.v
theories/SfSpec.v
theories/SfProofs.v
theories/SfWhole.v
theories/SfEx.v
theories/SfGiven.v
theories/Prop_Sf.v
theories/EdModel.v
theories/EdProofs.v
theories/EdEx.v
theories/Prop_Ed.v
