-Q theories Verif
theories/Base.v
theories/ModelMem.v
theories/ModelProt.v
theories/ModelEnc.v
theories/ModelSyntax.v
theories/ModelMacro.v
theories/SpecX86.v
theories/SpecAsm.v
theories/SpecTaken.v
theories/Trace.v
theories/Emit.v
theories/EncDec.v
theories/Fidelity.v
theories/FidelityInst.v
theories/StateFid.v
theories/SpecState.v
theories/EncFacts.v
theories/TakenFacts.v
theories/EncRefute.v
theories/Props_Enc.v
theories/SpecHist.v
theories/MemInv.v
theories/MemStep.v
theories/MemFinal.v
theories/MemFill.v
theories/MemHist.v
theories/MemRun.v
theories/MemSafe.v
theories/MemOut.v
theories/MemFacts.v
theories/MemLocal.v
theories/MemPlace.v
theories/MemMisc.v
theories/MemCode.v
theories/MemThm.v
theories/MemDemo.v
theories/MemMore.v
theories/Props_Mem.v
theories/SpecProg.v
theories/ProgOne.v
theories/ProgBlock.v
theories/ProgExec.v
theories/ProgSim.v
theories/ProgSplit.v
theories/ProgDemo.v
theories/Props_Prog.v
theories/ModelParse.v
theories/SpecGrammar.v
theories/ParseOk.v
theories/ParseStmt.v
theories/ParseFacts.v
theories/ParseProg.v
theories/ParseScale.v
theories/TakenDemo.v
theories/Props_Taken.v
theories/MacroRefuse.v
theories/Props_Macro.v
theories/DemoText.v
theories/SpecFP.v
theories/SpecMachine.v
theories/SpecCpu.v
theories/MachRun.v
theories/BlockTaken.v
theories/MachLib.v
theories/MachImage.v
theories/Fibo.v
theories/FiboRun.v
theories/FiboEnd.v
theories/TestProgs.v
theories/TestRun.v
theories/TestRun2.v
theories/TestRun3.v
theories/TestDemo.v
theories/Props_Test.v
theories/MachDemo.v
theories/BlockDemo.v
theories/Props_Mach.v
theories/BlockConst.v
theories/ConstDemo.v
theories/Props_Block.v
theories/ModelPos.v
theories/SpecPos.v
theories/PosFacts.v
theories/Props_Pos.v
theories/SpecPanic.v
theories/PanicFacts.v
theories/PanicDemo.v
theories/Props_Panic.v
theories/SpecScope.v
theories/ScopeFacts.v
theories/ScopeBlock.v
theories/ScopeDemo.v
theories/Props_Scope.v
theories/ModelEff.v
theories/SpecEff.v
theories/EffStmt.v
theories/EffFacts.v
theories/EffPure.v
theories/EffDemo.v
theories/Props_Eff.v
theories/SpecMulti.v
theories/MultiPlace.v
theories/MultiRun.v
theories/MultiDemo.v
theories/Props_Multi.v
theories/ModelLeave.v
theories/SpecLeave.v
theories/LeaveFacts.v
theories/LeaveBlock.v
theories/LeaveReach.v
theories/LeaveDemo.v
theories/Props_Leave.v
theories/SpecLive.v
theories/LiveFacts.v
theories/LivePlace.v
theories/LiveGrow.v
theories/LivePatch.v
theories/LiveDemo.v
theories/Props_Live.v
theories/ModelUse.v
theories/SpecUse.v
theories/UseFacts.v
theories/UseStmt.v
theories/UseBlock.v
theories/UseDemo.v
theories/Props_Use.v
theories/RebindFacts.v
theories/Props_Rebind.v
theories/SpecHost.v
theories/SpecVm.v
theories/VmCode.v
theories/VmPlace.v
theories/VmItems.v
theories/VmProg.v
theories/VmRun.v
theories/VmEnd.v
theories/VmFits.v
theories/VmDemo.v
theories/Props_Vm.v
theories/SpecShare.v
theories/ShareFacts.v
theories/ShareRun.v
theories/ShareEnd.v
theories/ShareDemo.v
theories/Props_Share.v
theories/ModelFlow.v
theories/SpecFlow.v
theories/FlowStmt.v
theories/FlowBlock.v
theories/FlowDemo.v
theories/Props_Flow.v
theories/ModelNew.v
theories/SpecNew.v
theories/NewFacts.v
theories/NewDemo.v
theories/Props_New.v
theories/SpecStory.v
theories/StoryFacts.v
theories/StoryDemo.v
theories/Props_Story.v
theories/SpecBudget.v
theories/BudgetFacts.v
theories/BudgetDemo.v
theories/Props_Budget.v
theories/ModelNames.v
theories/SpecNames.v
theories/NamesFacts.v
theories/NamesLabels.v
theories/NamesTie.v
theories/NamesDemo.v
theories/Props_Names.v
theories/SpecGas.v
theories/GasEnc.v
theories/GasInst.v
theories/GasFacts.v
theories/GasDemo.v
theories/Props_Gas.v
theories/SpecRust.v
theories/ModelSplice.v
theories/SpecSplice.v
theories/SpliceParse.v
theories/SpliceFacts.v
theories/SpliceThm.v
theories/SpliceDemo.v
theories/Props_Splice.v
theories/SpecAgain.v
theories/AgainPlace.v
theories/AgainRun.v
theories/AgainDemo.v
theories/Props_Again.v
theories/SpecWhen.v
theories/WhenFacts.v
theories/WhenRun.v
theories/WhenDemo.v
theories/Props_When.v
theories/SpecMoved.v
theories/MovedFacts.v
theories/MovedPlain.v
theories/MovedRun.v
theories/MovedDemo.v
theories/Props_Moved.v
theories/SpecRename.v
theories/RenameFacts.v
theories/RenameRun.v
theories/RenameDemo.v
theories/Props_Rename.v
theories/SpecOrder.v
theories/OrderFacts.v
theories/OrderRun.v
theories/OrderDemo.v
theories/Props_Order.v
theories/SpecTwo.v
theories/TwoFacts.v
theories/TwoDemo.v
theories/Props_Two.v
theories/ModelShow.v
theories/SpecShow.v
theories/ShowFacts.v
theories/ShowDemo.v
theories/Props_Show.v
theories/SpecLimit.v
theories/LimitFacts.v
theories/LimitDemo.v
theories/Props_Limit.v
theories/RoomFacts.v
theories/RoomDemo.v
theories/Props_Room.v
theories/SpecPlan.v
theories/PlanFacts.v
theories/PlanDemo.v
theories/Props_Plan.v
theories/SpecChart.v
theories/ChartFacts.v
theories/ChartDemo.v
theories/Props_Chart.v
