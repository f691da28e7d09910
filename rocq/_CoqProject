-Q theories Verif

theories/Base.v
theories/BaseProofs.v
theories/Num.v
theories/ModelEvent.v
theories/ModelCell.v
theories/ModelSeeds.v
theories/ModelNaive.v
theories/ModelVPTree.v
theories/ModelResampler.v
theories/SpecWeights.v
theories/SpecSearch.v
theories/SumProofs.v
theories/CellProofs.v
theories/RunProofs.v
theories/SeedsProofs.v
theories/NaiveProofs.v
theories/RunProofs2.v
theories/PropsCell.v
theories/PropsRun.v
theories/PropsNaive.v
theories/SpecTree.v
theories/VPTreeProofs.v
theories/VPTreeProofs2.v
theories/B64Proofs.v
theories/UnlimitedProofs.v
theories/VPTreeB64.v
theories/PropsTree.v
theories/ModelConc.v
theories/SpecConc.v
theories/ConcProofs.v
theories/ConcProofs2.v
theories/PropsConc.v
theories/SpecEvent.v
theories/EventProofs.v
theories/PropsEvent.v
theories/ModelDistance.v
theories/SpecDistance.v
theories/PermProofs.v
theories/PairingProofs.v
theories/DistanceProofs.v
theories/DistanceProofs2.v
theories/PropsDistance.v
theories/ModelUnweight.v
theories/SpecUnweight.v
theories/UnweightProofs.v
theories/PropsUnweight.v
theories/ModelCres.v
theories/SpecCres.v
theories/CresProofs.v
theories/CresProofs2.v
theories/PropsCres.v
theories/ModelPartition.v
theories/SpecPartition.v
theories/PartitionProofs.v
theories/PropsPartition.v
theories/ModelCollector.v
theories/SpecCollector.v
theories/CollectorProofs.v
theories/CollectorProofs2.v
theories/PropsCollector.v
theories/ModelText.v
theories/ModelHepMC.v
theories/ModelLHEF.v
theories/ModelStripper.v
theories/SpecText.v
theories/SpecFormats.v
theories/SpecHepMC.v
theories/TextProofs.v
theories/ReaderProofs.v
theories/ParserProofs.v
theories/HepMCProofs.v
theories/HepMCProofs2.v
theories/FormatProofs.v
theories/HepMCProofs3.v
theories/NamesProofs.v
theories/FileProofs.v
theories/FileProofs2.v
theories/TextExamples.v
theories/PropsHepMC.v
theories/FileProofs3.v
theories/SpecScaling.v
theories/ScalingProofs.v
theories/PropsFormats.v
theories/ModelIO.v
theories/SpecIO.v
theories/IOProofs.v
theories/PropsIO.v
theories/SpecRecord.v
theories/RecordProofs.v
theories/PropsRecord.v
theories/ModelCluster.v
theories/SpecCluster.v
theories/ClusterProofs.v
theories/PropsCluster.v
theories/ModelCApi.v
theories/SpecCApi.v
theories/CApiProofs.v
theories/PropsCApi.v
theories/ModelClassify.v
theories/SpecClassify.v
theories/ClassifyProofs.v
theories/ClassifyProofs2.v
theories/ClassifyProofs3.v
theories/PropsClassify.v
theories/ModelOpt.v
theories/SpecOpt.v
theories/OptProofs.v
theories/PropsOpt.v
theories/ModelNtuple.v
theories/SpecNtuple.v
theories/NtupleProofs.v
theories/PropsNtuple.v
theories/B64Errors.v
theories/SpecRounding.v
theories/B64Run.v
theories/B64Run2.v
theories/B64Finite.v
theories/PropsRounding.v
theories/ModelMain.v
theories/SpecMain.v
theories/MainProofs.v
theories/MainProofs2.v
theories/MainProofs3.v
theories/PropsMain.v
theories/ModelFS.v
theories/SpecFS.v
theories/FSProofs.v
theories/FSProofs2.v
theories/FSProofs3.v
theories/FSProofs4.v
theories/FSProofs5.v
theories/PropsFS.v
theories/SpecOrder.v
theories/OrderProofs.v
theories/PropsOrder.v
theories/SpecSchedule.v
theories/ConcProofs3.v
theories/PropsSchedule.v
theories/SpecPanic.v
theories/PanicProofs.v
theories/PanicProofs2.v
theories/PropsPanic.v
theories/ModelNumber.v
theories/SpecNumber.v
theories/NumberProofs.v
theories/NumberProofs2.v
theories/PropsNumber.v
theories/PropsFinite.v
theories/SpecMean.v
theories/MeanProofs.v
theories/PropsMean.v
theories/ModelProgram.v
theories/ProgramProofs.v
theories/ProgramProofs2.v
theories/PropsProgram.v
theories/SpecLocal.v
theories/LocalProofs.v
theories/LocalProofs2.v
theories/PropsLocal.v
theories/ProgramProofs3.v
theories/PropsProgram2.v
theories/PropsLocal2.v
theories/ModelThreads.v
theories/ThreadsProofs.v
theories/PropsThreads.v
theories/SpecShare.v
theories/ShareProofs.v
theories/ModelPartMain.v
theories/PartMainProofs.v
theories/PropsShare.v
theories/PropsPrograms.v
theories/DefaultProofs.v
theories/PropsDefault.v
theories/ModelCRun.v
theories/PropsCRun.v
theories/SpecNamed.v
theories/NamedProofs.v
theories/NamedProofs2.v
theories/NamedProofs3.v
theories/NamedProofs4.v
theories/PropsNamed.v
theories/ModelLog.v
theories/SpecLog.v
theories/LogProofs.v
theories/LogProofs2.v
theories/LogProofs3.v
theories/PropsLog.v
theories/ModelProgress.v
theories/SpecProgress.v
theories/ProgressProofs.v
theories/ProgressProofs2.v
theories/PropsProgress.v
theories/ModelNtProgram.v
theories/SpecNtProgram.v
theories/NtProgramProofs.v
theories/NtProgramProofs2.v
theories/NtProgramProofs3.v
theories/PropsNtProgram.v
theories/ModelXml.v
theories/SpecXml.v
theories/XmlProofs.v
theories/XmlProofs2.v
theories/PropsXml.v
theories/ModelRead.v
theories/SpecRead.v
theories/ReadProofs.v
theories/ReadProofs2.v
theories/PropsRead.v
theories/SpecMoments.v
theories/B64Distance.v
theories/B64Distance2.v
theories/B64Distance3.v
theories/PropsMoments.v
theories/PropsPanic2.v
theories/ModelClusterI32.v
theories/SpecClusterI32.v
theories/ClusterI32Proofs.v
theories/PropsClusterI32.v
theories/ModelUnweight64.v
theories/SpecUnweight64.v
theories/B64Unweight.v
theories/B64Unweight2.v
theories/B64Unweight3.v
theories/PropsUnweight64.v
theories/ModelReadRun.v
theories/SpecReadRun.v
theories/ReadRunProofs.v
theories/PropsReadRun.v
theories/SpecTreeNear.v
theories/VPTreeNear.v
theories/PropsTreeNear.v
theories/SpecAccuracy.v
theories/DistAccuracy.v
theories/DistAccuracy2.v
theories/DistAccuracyKm.v
theories/DistAccuracy3.v
theories/DistAccuracy4.v
theories/DistAccuracy5.v
theories/PropsAccuracy.v
theories/SpecSeparated.v
theories/SeparatedProofs.v
theories/PropsSeparated.v
theories/SeparatedProofs2.v
theories/PropsSeparated2.v
theories/SeparatedThreads.v
theories/PropsSeparated3.v
theories/SpecSymmetry.v
theories/SymmetryProofs.v
theories/PropsSymmetry.v
theories/SpecMix.v
theories/MixProofs.v
theories/PropsMix.v
theories/SpecRegion.v
theories/RegionProofs.v
theories/RegionProofs2.v
theories/PropsRegion.v
theories/MixThreads.v
theories/PropsMix2.v
theories/RegionThreads.v
theories/PropsRegion2.v
theories/PropsSymmetry2.v
theories/LimitProofs.v
theories/PropsLimit.v
