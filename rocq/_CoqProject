-Q theories Verif
theories/Base.v
theories/GraphModel.v
theories/Spec.v
theories/BaseFacts.v
theories/GraphFacts.v
theories/FromNfa.v
theories/GraphOps.v
theories/Minimize.v
theories/UnionFindFacts.v
theories/Quotient.v
theories/GraphMore.v
theories/PropsGraph.v
theories/TextModel.v
theories/TextSpec.v
theories/TextFacts.v
theories/TextClaims.v
theories/AttFacts.v
theories/CliModel.v
theories/CliFacts.v
theories/PropsText.v
theories/BitsModel.v
theories/BitsFacts.v
theories/StreamModel.v
theories/InputSpec.v
theories/StreamFacts.v
theories/PropsInput.v
theories/TorusModel.v
theories/TfheSpec.v
theories/TorusFacts.v
theories/TfheFacts.v
theories/PropsTorus.v
theories/RunnerModel.v
theories/RunnerSpec.v
theories/RunnerFacts.v
theories/LookupFacts.v
theories/ReachFacts.v
theories/FlutFacts.v
theories/BlockFacts.v
theories/PropsRunner.v
theories/ParModel.v
theories/ParFacts.v
theories/SchedFacts.v
theories/PropsPar.v
theories/ObliviousSpec.v
theories/ObliviousFacts.v
theories/PropsOblivious.v
theories/ClientModel.v
theories/ClientFacts.v
theories/CmdModel.v
theories/CmdSpec.v
theories/CmdFacts.v
theories/PropsCmd.v
theories/TimeModel.v
theories/PropsTime.v
theories/LtlModel.v
theories/LtlSpec.v
theories/LtlFacts1.v
theories/LtlFacts2.v
theories/LtlFacts3.v
theories/LtlFacts4.v
theories/LtlFacts5.v
theories/PropsLtl.v
theories/CounterModel.v
theories/CtestModel.v
theories/CtestSpec.v
theories/CtestFacts.v
theories/PropsCtest.v
theories/CounterSpec.v
theories/CounterFacts1.v
theories/CounterFacts2.v
theories/CounterFacts3.v
theories/CounterFacts4.v
theories/PropsCounter.v
theories/PropsCounter2.v
theories/PropsCounter3.v
theories/Conformance.v
theories/DotModel.v
theories/DotSpec.v
theories/DotFacts.v
theories/PropsDot.v
theories/MainModel.v
theories/MainSpec.v
theories/MainFacts.v
theories/MainClaims.v
theories/PropsMain.v
theories/RandomModel.v
theories/RandomSpec.v
theories/RandomFacts.v
theories/PropsRandom.v
theories/BenchModel.v
theories/BenchSpec.v
theories/BenchFacts.v
theories/BenchFacts2.v
theories/BenchManual.v
theories/BenchCli.v
theories/PropsBench.v
theories/PropsBench2.v
theories/PropsBench3.v
theories/BenchOutModel.v
theories/BenchOutFacts.v
theories/BenchOutFacts2.v
theories/BenchOutCli.v
theories/PropsBenchOut.v
theories/CrashModel.v
theories/CrashFacts.v
theories/PropsCrash.v
theories/PropsAgain.v
theories/ScriptModel.v
theories/ScriptSpec.v
theories/ScriptFacts.v
theories/PropsScript.v
theories/Canonical.v
theories/PropsCanon.v
theories/BenchScriptModel.v
theories/BenchScriptSpec.v
theories/BenchScriptFacts.v
theories/PropsBenchScript.v
theories/MachineSpec.v
theories/MachineFacts1.v
theories/MachineFacts2.v
theories/PropsMachine.v
theories/LtlSemantics.v
theories/PropsMonitor.v
theories/ServerSpec.v
theories/ServerFacts.v
theories/PropsServer.v
theories/ProcModel.v
theories/ProcSpec.v
theories/ProcFacts.v
theories/ProcFacts2.v
theories/ProcFacts3.v
theories/PropsProc.v
theories/Test0Model.v
theories/Test0Spec.v
theories/PropsTest0.v
theories/Numbering.v
theories/NumberSpec.v
theories/PropsNumber.v
theories/CutSpec.v
theories/CutFacts.v
theories/PropsCut.v
theories/DiskModel.v
theories/DiskFacts.v
theories/PropsDisk.v
theories/DiskRunModel.v
theories/DiskRunFacts.v
theories/PropsDiskRun.v
theories/PipeSpec.v
theories/PipeFacts.v
theories/PipeAlgebra.v
theories/PropsPipe.v
theories/LogModel.v
theories/LogSpec.v
theories/LogFacts.v
theories/PropsLog.v
theories/GrowModel.v
theories/GrowSpec.v
theories/GrowFacts.v
theories/PropsGrow.v
theories/MsgModel.v
theories/MsgSpec.v
theories/MsgFacts.v
theories/PropsMsg.v
theories/SayModel.v
theories/SaySpec.v
theories/SayFacts.v
theories/SayClaims.v
theories/PropsSay.v
theories/RefuseSpec.v
theories/RefuseFacts.v
theories/PropsRefuse.v
theories/BlameSpec.v
theories/BlameFacts.v
theories/PropsBlame.v
theories/StderrModel.v
theories/StderrSpec.v
theories/PropsStderr.v
theories/LogDiskModel.v
theories/LogDiskSpec.v
theories/LogDiskFacts.v
theories/PropsLogDisk.v
theories/LtlLogModel.v
theories/LtlLogSpec.v
theories/LtlLogFacts.v
theories/PropsLtlLog.v
theories/KeyDiskModel.v
theories/KeyDiskSpec.v
theories/PropsKeyDisk.v
theories/JoinedModel.v
theories/JoinedSpec.v
theories/JoinedFacts.v
theories/PropsJoined.v
theories/JoinedBenchModel.v
theories/JoinedBenchSpec.v
theories/PropsJoinedBench.v
theories/CtestCliModel.v
theories/CtestCliSpec.v
theories/PropsCtestCli.v
