-Q theories Verif
theories/Base.v
theories/Num.v
theories/NumB64.v
theories/NumLaws.v
theories/NumXR.v
theories/NumXRLaws.v
theories/TimeSeries.v
theories/Lemire.v
theories/Distance.v
theories/NumFacts.v
theories/LoopFacts.v
theories/DtwSpec.v
theories/DtwPaths.v
theories/NumB64Laws.v
theories/DtwProofs.v
theories/Metrics.v
theories/DtwMain.v
theories/DtwResults.v
theories/DtwReal.v
theories/DtwBounds.v
theories/DtwLen1.v
theories/DtwHang.v
theories/LemireProofs.v
theories/LowerBounds.v
theories/Pairwise.v
theories/DistSpec.v
theories/DistFacts.v
theories/DistLink.v
theories/Band.v
theories/PropsDistance.v
theories/TSSet.v
theories/StdAlg.v
theories/Candidate.v
theories/Group.v
theories/GroupSpace.v
theories/NumMore.v
theories/DataSpec.v
theories/DataProofs.v
theories/PropsData.v
theories/HeapFacts.v
theories/GroupSpec.v
theories/Members.v
theories/GroupProofs.v
theories/GroupAll.v
theories/GroupView.v
theories/GroupDist.v
theories/PropsGroup.v
theories/CandOrder.v
theories/TopK.v
theories/DtwExt.v
theories/BruteForce.v
theories/SearchSpec.v
theories/SearchProofs.v
theories/SearchCases.v
theories/BruteProofs.v
theories/PropsSearch.v
theories/Traverse.v
theories/QueryState.v
theories/BestMatch.v
theories/QuerySpec.v
theories/QueryProofs.v
theories/QueryCases.v
theories/PropsQuery.v
theories/KHeap.v
theories/KSim.v
theories/KBest.v
theories/PropsKSim.v
theories/Loader.v
theories/LoaderSpec.v
theories/LoaderProofs.v
theories/PropsLoader.v
theories/PAA.v
theories/PAASpec.v
theories/PAAProofs.v
theories/PAASearch.v
theories/PropsPAA.v
theories/Archive.v
theories/ArchiveProofs.v
theories/ArchiveState.v
theories/ArchiveSpec.v
theories/ArchiveTrunc.v
theories/PropsArchive.v
theories/PropsArchiveFail.v
theories/ThreadPool.v
theories/PoolProofs.v
theories/PoolGroup.v
theories/PropsThreads.v
theories/TSObject.v
theories/TSObjSpec.v
theories/TSObjProofs.v
theories/TSObjOwn.v
theories/TSObjValue.v
theories/PropsObject.v
theories/Api.v
theories/ApiSpec.v
theories/ApiProofs.v
theories/QueryUB.v
theories/ApiQuery.v
theories/ApiPaa.v
theories/PropsApi.v
theories/PropsApiQuery.v
theories/OldFormat.v
theories/OldSpec.v
theories/OldProofs.v
theories/PrintDec.v
theories/PropsOld.v
theories/Cli.v
theories/CliSpec.v
theories/CliProofs.v
theories/PropsCli.v
theories/PropsNames.v
theories/LemireAny.v
theories/Ucr.v
theories/UcrReal.v
theories/UcrDtw.v
theories/UcrBounds.v
theories/UcrSpec.v
theories/UcrNorm.v
theories/UcrWindow.v
theories/UcrChunk.v
theories/UcrProofs.v
theories/UcrSafe.v
theories/PropsUcr.v
theories/AccReal.v
theories/AccDtw.v
theories/AccEnd.v
theories/AccKinds.v
theories/AccLink.v
theories/AccPair.v
theories/AccCut.v
theories/PropsAccuracy.v
theories/GapReal.v
theories/PropsGuarantee.v
theories/PropsKNear.v
theories/PropsMore.v
theories/PropsZero.v
theories/PropsRelease.v
theories/GroupFile.v
theories/PropsGroupFile.v
theories/ApiLocal.v
theories/ApartSpec.v
theories/PropsApart.v
theories/Quiet.v
theories/QuietApi.v
theories/QuietSpec.v
theories/QuietFresh.v
theories/PropsQuiet.v
theories/PropsCount.v
theories/PropsBand.v
theories/PropsScale.v
theories/Py.v
theories/PySpec.v
theories/PyProofs.v
theories/PropsPy.v
theories/NamedSpec.v
theories/PropsNamed.v
theories/NormSpec.v
theories/PropsNorm.v
theories/PropsFiles.v
theories/PropsInt.v
theories/DtwWhole.v
theories/PropsWhole.v
theories/PropsOrder.v
theories/DecText.v
theories/DecReal.v
theories/DecRound.v
theories/PropsText.v
theories/CutSpec.v
theories/CutProofs.v
theories/PropsCut.v
theories/PropsSelf.v
theories/Disk.v
theories/DiskProofs.v
theories/PropsDisk.v
theories/Turn.v
theories/TurnGroup.v
theories/PropsTurn.v
theories/ManageSpec.v
theories/Manage.v
theories/PropsManage.v
theories/WarpPath.v
theories/CosineSpec.v
theories/PropsCosine.v
theories/MissingSpec.v
theories/Missing.v
theories/PropsMissing.v
theories/Script.v
theories/ScriptSpec.v
theories/ScriptProofs.v
theories/ScriptRuns.v
theories/PropsScript.v
theories/Experiment.v
theories/ExperimentSpec.v
theories/ExperimentProofs.v
theories/PropsExperiment.v
theories/ErrorSpec.v
theories/Rank.v
theories/PropsError.v
theories/Extent.v
theories/ExtentSpec.v
theories/ExtentNum.v
theories/ExtentProofs.v
theories/PropsExtent.v
theories/Prepare.v
theories/PrepareSpec.v
theories/PrepareProofs.v
theories/PropsPrepare.v
theories/EndlessSpec.v
theories/EndlessProofs.v
theories/PropsEndless.v
theories/SameSpec.v
theories/SameProofs.v
theories/PropsSame.v
theories/UnitData.v
theories/UnitTests.v
theories/UnitSets.v
theories/UnitApi.v
theories/QueryValue.v
theories/PropsQueryValue.v
theories/OneBest.v
theories/PropsOneBest.v
theories/PropsFewer.v
theories/PropsSwap.v
theories/PropsFound.v
theories/PropsZeroWhole.v
theories/PropsEqual.v
theories/PropsZeroWholeK.v
theories/PropsExtreme.v
theories/PropsRegroup.v
theories/PropsRegroupBand.v
theories/PropsGroupsApart.v
theories/PropsPaaApart.v
theories/PropsFresh.v
theories/PropsSwapCalls.v
