-Q theories Verif
theories/Base.v
theories/BaseFacts.v
theories/Spec.v
theories/Instance.v
theories/InstanceFacts.v
theories/PartitionFacts.v
theories/OptModels.v
theories/Initial.v
theories/Bounds.v
theories/InitialFacts.v
theories/OptFacts.v
theories/BoundsFacts.v
theories/BruteForce.v
theories/BruteForceFacts.v
theories/Ex.v
theories/PropInstance.v
theories/PropInitial.v
theories/PropBounds.v
theories/Refine.v
theories/RefineFacts.v
theories/CostRefine.v
theories/Merge.v
theories/Post.v
theories/CostRefineFacts.v
theories/MergeFacts.v
theories/AccRef.v
theories/RefineSum.v
theories/PropRefine.v
theories/PropMerge.v
theories/Knapsack.v
theories/Violations.v
theories/BigM.v
theories/KnapsackFacts.v
theories/ViolationsFacts.v
theories/ViolTable.v
theories/BigMFacts.v
theories/BigMFacts2.v
theories/SongFacts.v
theories/BigMEx.v
theories/PropBigM.v
theories/Adaptive.v
theories/AdaptiveSpec.v
theories/AdaptiveWp.v
theories/Milp.v
theories/AdaptiveStruct.v
theories/AdaptiveStart.v
theories/AdaptiveCount.v
theories/CountEx.v
theories/AdaptiveBounds.v
theories/NearSpec.v
theories/ContFacts.v
theories/AdaptiveAny.v
theories/AdaptiveEnd.v
theories/AdaptiveQuery.v
theories/AdaptiveCycle.v
theories/AdaptiveEx.v
theories/AdaptiveEx2.v
theories/EndEx.v
theories/PropAdaptive.v
theories/PropBracket.v
theories/MilpFacts.v
theories/MilpEx.v
theories/PropMilp.v
theories/Report.v
theories/Main.v
theories/ReportFacts.v
theories/NameFacts.v
theories/Floats.v
theories/ReportEx.v
theories/PropReport.v
theories/Export.v
theories/ExportFacts.v
theories/PipelineFacts.v
theories/ExportEx.v
theories/PropExport.v
theories/Line.v
theories/SameEx.v
theories/PropEnd.v
theories/PropProject.v
theories/CycleEx.v
theories/PropCycle.v
theories/QueryEx.v
theories/PropQuery.v
theories/Rounding.v
theories/RoundingFacts.v
theories/RoundingStore.v
theories/RoundingLoop.v
theories/RoundingEx.v
theories/PropRounding.v
theories/BoundsFl.v
theories/BoundsFlFacts.v
theories/PropDoubles.v
theories/SplitSpec.v
theories/Farkas.v
theories/SplitDual.v
theories/SplitSelect.v
theories/SplitEx.v
theories/PropSplit.v
theories/Text.v
theories/TextSpec.v
theories/TextFacts.v
theories/TextIff.v
theories/TextGen.v
theories/PropText.v
theories/Tenths.v
theories/PropTenths.v
theories/NearFacts.v
theories/Mip.v
theories/ContEx.v
theories/PropCont.v
theories/AgreeSpec.v
theories/AgreeFacts.v
theories/AgreeEx.v
theories/PropAgree.v
theories/UnitTests.v
theories/ResultText.v
theories/ResultSpec.v
theories/ResultFacts.v
theories/ResultRows.v
theories/ResultTables.v
theories/ResultEx.v
theories/PropResult.v
theories/LogSpec.v
theories/AdaptiveLog.v
theories/LogEx.v
theories/PropLog.v
theories/GapSpec.v
theories/AdaptiveGap.v
theories/GapEx.v
theories/PropGap.v
theories/Console.v
theories/ConsoleSpec.v
theories/ConsoleFacts.v
theories/ConsoleRun.v
theories/ConsoleEx.v
theories/PropConsole.v
theories/Double.v
theories/DoubleFacts.v
theories/DoubleOps.v
theories/DoubleNear.v
theories/DoubleFloor.v
theories/DoubleUse.v
theories/PropBinary64.v
theories/RiskFacts.v
theories/RiskEx.v
theories/PropRisk.v
theories/MetaSpec.v
theories/MetaFacts.v
theories/MetaEx.v
theories/PropMeta.v
theories/AdaptiveRobust.v
theories/RobustEx.v
theories/NearValue.v
theories/NearValueEx.v
theories/PropNearValue.v
theories/RobustCont.v
theories/RobustContEx.v
theories/PropRobust.v
theories/TieSpec.v
theories/AdaptiveTies.v
theories/TieEx.v
theories/PropTies.v
theories/DeadlineFacts.v
theories/DeadlineEx.v
theories/PropDeadline.v
theories/OutsideSpec.v
theories/OutsideFacts.v
theories/OutsideEx.v
theories/PropOutside.v
theories/Campaign.v
theories/CampaignSpec.v
theories/CampaignFacts.v
theories/CampaignExport.v
theories/CampaignEx.v
theories/PropCampaign.v
theories/OrlibData.v
theories/Orlib.v
theories/OrlibSpec.v
theories/OrlibRead.v
theories/OrlibFacts.v
theories/OrlibRuns.v
theories/OrlibEx.v
theories/PropOrlib.v
theories/SolveSpec.v
theories/SolveFacts.v
theories/SolveRuns.v
theories/SolveEx.v
theories/PropSolve.v
theories/FormSpec.v
theories/FormFacts.v
theories/FormRuns.v
theories/FormEx.v
theories/PropForm.v
theories/CallSpec.v
theories/CallFacts.v
theories/CallRuns.v
theories/CallEx.v
theories/PropCall.v
theories/StopSpec.v
theories/StopFacts.v
theories/StopRuns.v
theories/StopEx.v
theories/PropStop.v
theories/TurnsSpec.v
theories/TurnsFacts.v
theories/TurnsRuns.v
theories/PropTurns.v
theories/LimitSpec.v
theories/LimitFacts.v
theories/LimitEx.v
theories/PropLimit.v
theories/SourceSpec.v
theories/SourceFacts.v
theories/SourceEx.v
theories/PropSource.v
theories/ShownSpec.v
theories/ShownFacts.v
theories/ShownEx.v
theories/PropShown.v
theories/NearSplitSpec.v
theories/NearSplit.v
theories/NearSplitEx.v
theories/PropNearSplit.v
