-Q theories Verif
theories/Base/Bytes.v
theories/Proofs/BytesFacts.v
theories/Model/Levels.v
theories/Spec/LevelsSpec.v
theories/Proofs/LevelsFacts.v
theories/Properties/PLevels.v
theories/Model/TimeFmt.v
theories/Spec/TimeSpec.v
theories/Proofs/TimeFacts.v
theories/Properties/PTime.v
theories/Model/Message.v
theories/Spec/MessageSpec.v
theories/Proofs/MessageFacts.v
theories/Properties/PMessage.v
theories/Model/Capture.v
theories/Proofs/CaptureFacts.v
theories/Properties/PCapture.v
theories/Model/Macros.v
theories/Spec/MacrosSpec.v
theories/Proofs/MacrosFacts.v
theories/Properties/PMacros.v
theories/Model/FileName.v
theories/Spec/FileNameSpec.v
theories/Proofs/FileNameFacts.v
theories/Model/FileSink.v
theories/Spec/FileSinkSpec.v
theories/Proofs/FileSinkFacts.v
theories/Properties/PFileName.v
theories/Properties/PFileSink.v
theories/Model/Signals.v
theories/Spec/SignalsSpec.v
theories/Proofs/SignalsFacts.v
theories/Model/StackDump.v
theories/Spec/StackDumpSpec.v
theories/Proofs/StackDumpFacts.v
theories/Properties/PSignals.v
theories/Properties/PStackDump.v
theories/Properties/PGlobal.v
theories/Model/Global.v
theories/Spec/GlobalSpec.v
theories/Proofs/GlobalFacts.v
theories/Proofs/HookFacts.v
theories/Base/Threads.v
theories/Model/SharedQueue.v
theories/Spec/QueueSpec.v
theories/Proofs/QueueFacts.v
theories/Properties/PQueue.v
theories/Model/ActiveObj.v
theories/Spec/ActiveSpec.v
theories/Proofs/ActiveFacts.v
theories/Properties/PActive.v
theories/Model/Worker.v
theories/Spec/WorkerSpec.v
theories/Spec/FairSpec.v
theories/Proofs/WorkerLife.v
theories/Proofs/WorkerHist.v
theories/Proofs/WorkerBusy.v
theories/Proofs/WorkerTok.v
theories/Proofs/WorkerNum.v
theories/Proofs/WorkerProm.v
theories/Proofs/WorkerMeasure.v
theories/Proofs/WorkerWait.v
theories/Proofs/WorkerEnd.v
theories/Proofs/WorkerTrace.v
theories/Proofs/FairFacts.v
theories/Properties/PWorker.v
theories/Model/Reentry.v
theories/Spec/ReentrySpec.v
theories/Proofs/ReentryFacts.v
theories/Properties/PReentry.v
theories/Model/Ownership.v
theories/Proofs/OwnershipFacts.v
theories/Model/Windows.v
theories/Spec/WindowsSpec.v
theories/Proofs/WindowsFacts.v
theories/Properties/PWindows.v
theories/Model/Copies.v
theories/Proofs/CopiesFacts.v
theories/Spec/OwnershipSpec.v
theories/Properties/POwnership.v
theories/Properties/PCopies.v
theories/Model/CrashText.v
theories/Properties/PCrashText.v
theories/Model/Races.v
theories/Spec/RacesSpec.v
theories/Proofs/RacesFacts.v
theories/Proofs/RacesUse.v
theories/Proofs/RacesTable.v
theories/Proofs/RacesGlobal.v
theories/Properties/PRaces.v
theories/Spec/HappensBeforeSpec.v
theories/Spec/WeakMemorySpec.v
theories/Proofs/HappensBeforeFacts.v
theories/Proofs/WeakMemoryFacts.v
theories/Proofs/WeakMemoryUse.v
theories/Properties/PHappensBefore.v
theories/Model/Interrupt.v
theories/Model/EndToEnd.v
theories/Model/Statement.v
theories/Model/Stamps.v
theories/Model/StaticInit.v
theories/Spec/InterruptSpec.v
theories/Spec/EndToEndSpec.v
theories/Spec/StatementSpec.v
theories/Proofs/InterruptFacts.v
theories/Proofs/EndToEndFacts.v
theories/Proofs/StatementFacts.v
theories/Properties/PInterrupt.v
theories/Properties/PEndToEnd.v
theories/Properties/PStatement.v
theories/Spec/IsolationSpec.v
theories/Spec/StaticInitSpec.v
theories/Proofs/StaticInitFacts.v
theories/Properties/PIsolation.v
theories/Properties/PFair.v
theories/Properties/PStaticInit.v
theories/Spec/RotationSpec.v
theories/Proofs/RotationFacts.v
theories/Properties/PRotation.v
theories/Model/StaticExit.v
theories/Spec/StaticExitSpec.v
theories/Proofs/StaticExitFacts.v
theories/Properties/PStaticExit.v
theories/Model/Lifecycle.v
theories/Model/Exhaustion.v
theories/Model/WriteError.v
theories/Spec/LifecycleSpec.v
theories/Spec/ExhaustionSpec.v
theories/Spec/WriteErrorSpec.v
theories/Proofs/LifecycleFacts.v
theories/Proofs/ExhaustionFacts.v
theories/Proofs/WriteErrorFacts.v
theories/Proofs/CrashFacts.v
theories/Properties/PLifecycle.v
theories/Properties/PExhaustion.v
theories/Properties/PWriteError.v
theories/Model/QueueClient.v
theories/Spec/QueueClientSpec.v
theories/Proofs/QueueClientFacts.v
theories/Properties/PQueueClient.v
theories/Model/Dismantle.v
theories/Spec/DismantleSpec.v
theories/Proofs/DismantleFacts.v
theories/Properties/PDismantle.v
theories/Model/WinLife.v
theories/Proofs/WinLifeFacts.v
theories/Properties/PWinLife.v
theories/Model/WinOptions.v
theories/Proofs/WinOptionsFacts.v
theories/Properties/PWinOptions.v
theories/Model/Atomics.v
theories/Proofs/AtomicsFacts.v
theories/Proofs/AtomicsCheck.v
theories/Properties/PAtomics.v
theories/Model/BuildOptions.v
theories/Proofs/BuildOptionsFacts.v
theories/Properties/PBuildOptions.v
theories/Model/SharedDisk.v
theories/Spec/SharedDiskSpec.v
theories/Proofs/SharedDiskFacts.v
theories/Properties/PSharedDisk.v
theories/Model/ManySinks.v
theories/Spec/ManySinksSpec.v
theories/Properties/PManySinks.v
theories/Spec/QueueFairSpec.v
theories/Proofs/QueueFairFacts.v
theories/Proofs/QueueCycle.v
theories/Properties/PQueueFair.v
theories/Base/Cycle.v
theories/Spec/ActiveFairSpec.v
theories/Proofs/ActiveFairFacts.v
theories/Proofs/ActiveCycle.v
theories/Properties/PActiveFair.v
theories/Model/FaultyDisk.v
theories/Proofs/FaultyDiskFacts.v
theories/Properties/PFaultyDisk.v
theories/Model/TaskPatch.v
theories/Spec/TaskPatchSpec.v
theories/Proofs/TaskPatchFacts.v
theories/Properties/PTaskPatch.v
theories/Model/WinReport.v
theories/Spec/WinReportSpec.v
theories/Properties/PWinReport.v
theories/Model/AfterRaise.v
theories/Spec/AfterRaiseSpec.v
theories/Proofs/AfterRaiseFacts.v
theories/Properties/PAfterRaise.v
