-Q theories Verif
theories/AlignModel.v
theories/AlignSpec.v
theories/BuildModel.v
theories/BuildSpec.v
theories/CallModel.v
theories/CallProofs.v
theories/CallSpec.v
theories/CanModel.v
theories/ChainModel.v
theories/CoralRegModel.v
theories/CovModel.v
theories/CovProofs.v
theories/CovSpec.v
theories/CtorModel.v
theories/CtorSpec.v
theories/DataModel.v
theories/DataProofs.v
theories/DataSpec.v
theories/DeepModel.v
theories/DeepProofs.v
theories/DeepProofs2.v
theories/DeepProofs3.v
theories/DeepSpec.v
theories/DevModel.v
theories/DevSpec.v
theories/DomArgModel.v
theories/FWModel.v
theories/FWProofs.v
theories/FWProofs2.v
theories/FWSpec.v
theories/FactModel.v
theories/FactSpec.v
theories/Fetch2Model.v
theories/Fetch2Spec.v
theories/FetchModel.v
theories/FetchProofs.v
theories/FetchSpec.v
theories/FiniteModel.v
theories/FloatModel.v
theories/FoldSpec.v
theories/GenModel.v
theories/GenProofs.v
theories/GenSpec.v
theories/GradProofs.v
theories/GradProofs2.v
theories/HistModel.v
theories/HoldModel.v
theories/InvSpec.v
theories/Labels.v
theories/LossModel.v
theories/LossProofs.v
theories/LossProofs2.v
theories/LossSpec.v
theories/ManyModel.v
theories/MapModel.v
theories/MapProofs.v
theories/MapProofs2.v
theories/MapProofs3.v
theories/MapSpec.v
theories/MetricsModel.v
theories/MetricsProofs.v
theories/MetricsProofs2.v
theories/MetricsSpec.v
theories/MmdlsModel.v
theories/ModuleModel.v
theories/MongeModel.v
theories/MongeProofs.v
theories/NestModel.v
theories/NetModel.v
theories/NetProofs.v
theories/NetProofs2.v
theories/NetSpec.v
theories/Np.v
theories/NpFacts.v
theories/NumberModel.v
theories/OTModel.v
theories/OTProofs.v
theories/OTProofs2.v
theories/OTProofs3.v
theories/OTSpec.v
theories/OrderSpec.v
theories/PDKernel.v
theories/PackModel.v
theories/PackSpec.v
theories/ParamModel.v
theories/PartSpec.v
theories/PipeModel.v
theories/PipeProofs.v
theories/PipeSpec.v
theories/PredictModel.v
theories/RMat.v
theories/RVec.v
theories/RVecFacts.v
theories/Rew2Model.v
theories/Rew2Spec.v
theories/ReweightModel.v
theories/ReweightProofs.v
theories/ReweightProofs2.v
theories/ReweightSpec.v
theories/RotModel.v
theories/ScorerModel.v
theories/SeedModel.v
theories/SeedSpec.v
theories/Sel2Model.v
theories/SelectModel.v
theories/SelectProofs.v
theories/SelectProofs2.v
theories/SelectSpec.v
theories/SelfModel.v
theories/SelfProofs.v
theories/SelfProofs2.v
theories/SelfProofs3.v
theories/SelfSpec.v
theories/SingleModel.v
theories/Spec.v
theories/SpecFacts.v
theories/SplitModel.v
theories/SplitProofs.v
theories/SplitProofs2.v
theories/SplitSpec.v
theories/SubModel.v
theories/SubProofs.v
theories/SubProofs2.v
theories/SubProofs3.v
theories/SubProofs4.v
theories/SubSpec.v
theories/TarsModel.v
theories/ThmAbsent.v
theories/ThmAgree.v
theories/ThmAlgebra.v
theories/ThmAlign.v
theories/ThmApart.v
theories/ThmApart2.v
theories/ThmApart3.v
theories/ThmAttain.v
theories/ThmBack.v
theories/ThmBudget.v
theories/ThmBuild.v
theories/ThmCall.v
theories/ThmCan.v
theories/ThmChain.v
theories/ThmCheck.v
theories/ThmClasses.v
theories/ThmClasses2.v
theories/ThmClose.v
theories/ThmCol.v
theories/ThmConst.v
theories/ThmContracts.v
theories/ThmCoord.v
theories/ThmCopies.v
theories/ThmCoralAuto.v
theories/ThmCoralReg.v
theories/ThmCov.v
theories/ThmCtor.v
theories/ThmDasvmEnd.v
theories/ThmData.v
theories/ThmDeep.v
theories/ThmDefaults.v
theories/ThmDev.v
theories/ThmDomArg.v
theories/ThmDrop.v
theories/ThmEqual.v
theories/ThmExamples.v
theories/ThmFW.v
theories/ThmFact.v
theories/ThmFail.v
theories/ThmFeatures.v
theories/ThmFetch.v
theories/ThmFetch2.v
theories/ThmFetch3.v
theories/ThmFinite.v
theories/ThmFloat.v
theories/ThmFolds.v
theories/ThmFrame.v
theories/ThmGen.v
theories/ThmGrad.v
theories/ThmGroups.v
theories/ThmHalt.v
theories/ThmHist.v
theories/ThmHist2.v
theories/ThmHold.v
theories/ThmHolds.v
theories/ThmHull.v
theories/ThmInt.v
theories/ThmInv.v
theories/ThmInv2.v
theories/ThmIsolated.v
theories/ThmJdot.v
theories/ThmJdot2.v
theories/ThmKeepOrder.v
theories/ThmKliep.v
theories/ThmKmeans.v
theories/ThmKnob.v
theories/ThmLabelLoss.v
theories/ThmLayers.v
theories/ThmLeak.v
theories/ThmLeast.v
theories/ThmLimit.v
theories/ThmLoss.v
theories/ThmMany.v
theories/ThmMap.v
theories/ThmMass.v
theories/ThmMetrics.v
theories/ThmMmd.v
theories/ThmMmdls.v
theories/ThmModule.v
theories/ThmMonge.v
theories/ThmName.v
theories/ThmNest.v
theories/ThmNet.v
theories/ThmNumber.v
theories/ThmOT.v
theories/ThmOneClass.v
theories/ThmOneClass2.v
theories/ThmOrder.v
theories/ThmOrder2.v
theories/ThmOrder3.v
theories/ThmPack.v
theories/ThmPackOld.v
theories/ThmParam.v
theories/ThmPart.v
theories/ThmPart2.v
theories/ThmPath.v
theories/ThmPipe.v
theories/ThmPredict.v
theories/ThmQuantile.v
theories/ThmQuantile2.v
theories/ThmRank.v
theories/ThmRbf.v
theories/ThmRecal.v
theories/ThmReserved.v
theories/ThmRew2.v
theories/ThmReweight.v
theories/ThmRisk.v
theories/ThmRot.v
theories/ThmSame.v
theories/ThmSame2.v
theories/ThmScale.v
theories/ThmScorer.v
theories/ThmScorer2.v
theories/ThmSeed.v
theories/ThmSeed2.v
theories/ThmSeed3.v
theories/ThmSeedRows.v
theories/ThmSel2.v
theories/ThmSelect.v
theories/ThmSelf.v
theories/ThmSingle.v
theories/ThmSingle2.v
theories/ThmSolvers.v
theories/ThmSpectral.v
theories/ThmSplit.v
theories/ThmStages.v
theories/ThmSub.v
theories/ThmTargetOnly.v
theories/ThmTight.v
theories/ThmTight2.v
theories/ThmTight3.v
theories/ThmTight4.v
theories/ThmTight5.v
theories/ThmTight6.v
theories/ThmTight7.v
theories/ThmTight8.v
theories/ThmTrade.v
theories/ThmTrain.v
theories/ThmTurn.v
theories/ThmTwice.v
theories/ThmUnbiased.v
theories/ThmUndo.v
theories/ThmUnit.v
theories/ThmUtils.v
theories/ThmView.v
theories/ThmWrap.v
theories/TurnProofs.v
theories/UnitModel.v
theories/UtilsModel.v
theories/UtilsProofs.v
theories/UtilsProofs2.v
theories/UtilsSpec.v
theories/ViewModel.v
theories/ViewSpec.v
theories/WrapModel.v
theories/WrapSpec.v
theories/Assumptions.v
