-Q theories Verif
theories/NdArray.v
theories/LocalNumberingModel.v
theories/IncidenceModel.v
theories/Sums.v
theories/IncidenceSpec.v
theories/IncidenceProofs.v
theories/IncidenceThms.v
theories/TriangleThms.v
theories/IncidenceProps.v
theories/MeshModel.v
theories/MeshSpec.v
theories/MeshProofs.v
theories/MeshThms.v
theories/IndexMapThms.v
theories/MetricKeyModel.v
theories/MetricKeyThms.v
theories/MeshProps.v
theories/GatherCore.v
theories/GatherModel.v
theories/GatherProofs.v
theories/GatherSpec.v
theories/GatherThms.v
theories/GatherInst.v
theories/TopologyModel.v
theories/TopologyProofs.v
theories/Gather0Forms.v
theories/GatherRefute.v
theories/MeshGather.v
theories/GatherProps.v
theories/Dict.v
theories/GmModel.v
theories/GmSpec.v
theories/GmProofs.v
theories/GmChain.v
theories/GmCache.v
theories/GmData.v
theories/GmFind.v
theories/MsChainModel.v
theories/MsChainThms.v
theories/GmProps.v
theories/QSums.v
theories/LmModel.v
theories/LmSpec.v
theories/LmProofs.v
theories/LmVec.v
theories/LmCustom.v
theories/LmSystem.v
theories/LmBlocks.v
theories/LmBmat.v
theories/LmEssential.v
theories/LmJacobi.v
theories/LmProps.v
theories/LmCacheModel.v
theories/LmCacheSpec.v
theories/LmCacheProofs.v
theories/LmCacheThms.v
theories/LmCacheShared.v
theories/LmCacheEffects.v
theories/LmThreshold.v
theories/LmCacheProps.v
theories/IterModel.v
theories/IterSpec.v
theories/IterProofs.v
theories/IterProps.v
theories/NdCacheModel.v
theories/NdCacheSpec.v
theories/NdCacheProofs.v
theories/NdCacheProps.v
theories/MemoModel.v
theories/MemoSpec.v
theories/MemoProofs.v
theories/MemoProps.v
theories/MgModel.v
theories/MgSpec.v
theories/MgProofs.v
theories/MgSolve.v
theories/MgProps.v
theories/MiscModel.v
theories/MiscSpec.v
theories/MiscText.v
theories/MiscGraph.v
theories/MiscRank.v
theories/MiscProps.v
theories/TimeModel.v
theories/TimeSpec.v
theories/TimeConst.v
theories/TimeFunc.v
theories/TimeText.v
theories/TimeParse.v
theories/TimeInstant.v
theories/TimeProps.v
theories/NrModel.v
theories/NrSpec.v
theories/NrProofs.v
theories/NrRun.v
theories/NrMain.v
theories/NrTotal.v
theories/NrPicard.v
theories/NrProps.v
theories/UnModel.v
theories/UnSpec.v
theories/UnProofs.v
theories/UnMesh.v
theories/UnSlices.v
theories/UnPrograms.v
theories/UnPrograms3.v
theories/UnThms.v
theories/UnRefute.v
theories/UnProps.v
theories/PolyModel.v
theories/PolySpec.v
theories/PolyProofs.v
theories/PolyCalc.v
theories/PolyCacheModel.v
theories/PolyCacheThms.v
theories/PolyTextThms.v
theories/PolyProps.v
theories/TensorModel.v
theories/TensorSpec.v
theories/TensorProofs.v
theories/TensorAct.v
theories/TensorThms.v
theories/TensorProps.v
theories/SpaceModel.v
theories/SpaceSpec.v
theories/SpaceProofs.v
theories/SpaceThms.v
theories/SpaceLaws.v
theories/SpaceText.v
theories/SpaceCalc.v
theories/SpaceProps.v
theories/FaceModel.v
theories/TriBasisModel.v
theories/FaceSpec.v
theories/FaceProofs.v
theories/FaceThms.v
theories/FaceThms2.v
theories/TriBasisThms.v
theories/FaceMemModel.v
theories/FaceMemProofs.v
theories/FaceRefute.v
theories/FaceProps.v
theories/TriProps.v
theories/MappingModel.v
theories/MappingSpec.v
theories/MappingProofs.v
theories/MappingProps.v
theories/JacobianModel.v
theories/JacobianSpec.v
theories/JacobianProofs.v
theories/JacobianProps.v
theories/RegionModel.v
theories/RegionSpec.v
theories/RegionProofs.v
theories/CrazySpec.v
theories/CrazyProofs.v
theories/CurveProofs.v
theories/ChaoticProofs.v
theories/RegionProps.v
theories/NormalModel.v
theories/NormalSpec.v
theories/NormalProofs.v
theories/PlaneProofs.v
theories/NormalProps.v
theories/ReduceModel.v
theories/ReduceSpec.v
theories/ReduceProofs.v
theories/ReduceForms.v
theories/ReduceRound.v
theories/ReduceStokes.v
theories/ReduceThree.v
theories/ReduceRound3.v
theories/ReduceStokes3.v
theories/ReduceTri.v
theories/ReduceProps.v
theories/MassModel.v
theories/MassSpec.v
theories/MassProofs.v
theories/MassThms.v
theories/MassPos.v
theories/MassExact.v
theories/MassWrong.v
theories/MassQuad.v
theories/MassProps.v
theories/SignatureModel.v
theories/SignatureSpec.v
theories/SignatureThms.v
theories/SignatureProps.v
theories/CochainModel.v
theories/CochainSpec.v
theories/CochainThms.v
theories/CochainFiles.v
theories/CochainProps.v
theories/ReversalModel.v
theories/ReversalSpec.v
theories/ReversalGeom.v
theories/ReversalThms.v
theories/ReversalSigns.v
theories/ReversalRaw.v
theories/ReversalWrong.v
theories/ReversalProps.v
theories/DistributeModel.v
theories/DistributeSpec.v
theories/DistributeThms.v
theories/DistributeDicts.v
theories/DistributeProps.v
theories/SplitModel.v
theories/SplitSpec.v
theories/SplitGeom.v
theories/SplitConf.v
theories/SplitParts.v
theories/SplitThms.v
theories/SplitNumber.v
theories/SplitBox.v
theories/SplitProps.v
theories/AxisModel.v
theories/AxisSpec.v
theories/AxisCells.v
theories/AxisThms.v
theories/AxisUnion.v
theories/AxisFinal.v
theories/AxisProps.v
theories/DofcorModel.v
theories/DofcorSpec.v
theories/DofcorThms.v
theories/DofcorRect.v
theories/DofcorProps.v
theories/WfModel.v
theories/WfSpec.v
theories/WfStr.v
theories/WfThms.v
theories/WfTerm.v
theories/WfSteps.v
theories/WfProps.v
theories/ProxyModel.v
theories/ProxySpec.v
theories/ProxyThms.v
theories/ProxyText.v
theories/ProxyProps.v
theories/FieldModel.v
theories/FieldSpec.v
theories/FieldThms.v
theories/FieldThms2.v
theories/FieldProps.v
theories/NlModel.v
theories/NlSpec.v
theories/NlSums.v
theories/NlTerms.v
theories/NlThms.v
theories/NlThms2.v
theories/NlThms3.v
theories/NlProps.v
theories/TermModel.v
theories/TermSpec.v
theories/TermThms.v
theories/TermThms2.v
theories/TermThms3.v
theories/TermThms4.v
theories/TermProps.v
theories/SampleModel.v
theories/SampleSpec.v
theories/SampleThms.v
theories/SampleThms2.v
theories/SampleThms3.v
theories/SampleThms4.v
theories/SampleThms5.v
theories/SampleThms6.v
theories/SampleProps.v
theories/GmresModel.v
theories/GmresSpec.v
theories/GmresSums.v
theories/GmresSerial.v
theories/GmresSerial2.v
theories/GmresThms.v
theories/GmresThms2.v
theories/GmresThms3.v
theories/GmresThms4.v
theories/GmresThms5.v
theories/GmresThms6.v
theories/GmresProps.v
theories/TrfModel.v
theories/TrfSpec.v
theories/TrfLattice.v
theories/TrfLattice2.v
theories/TrfSide.v
theories/TrfGlue.v
theories/TrfStatic.v
theories/TrfConform.v
theories/TrfLeaves.v
theories/TrfPairs.v
theories/TrfDynamic.v
theories/TrfRefine.v
theories/TrfTile.v
theories/TrfExamples.v
theories/TrfProps.v
theories/DdsModel.v
theories/DdsSpec.v
theories/DdsThms.v
theories/DdsOps.v
theories/DdsExamples.v
theories/DdsProps.v
theories/PslModel.v
theories/PslSpec.v
theories/PslThms.v
theories/PslNumber.v
theories/PslTorus.v
theories/PslGeom.v
theories/PslFaces.v
theories/PslExamples.v
theories/PslProps.v
theories/QdModel.v
theories/QdSpec.v
theories/QdLeg.v
theories/QdThms.v
theories/QdTensor.v
theories/QdMore.v
theories/QdExamples.v
theories/QdProps.v
theories/QkModel.v
theories/QkSpec.v
theories/QkThms.v
theories/QkProps.v
theories/SgModel.v
theories/SgSpec.v
theories/SgThms.v
theories/SgThms2.v
theories/SgUnion.v
theories/SgProps.v
theories/SgPoly.v
theories/SgPolyThms.v
theories/SgPolyProps.v
