-Q theories Verif
theories/Base.v
theories/OMap.v
theories/Node.v
theories/Ids.v
theories/Arena.v
theories/Trans.v
theories/Graph.v
theories/Spec.v
theories/Ptrs.v
theories/NodeProofs.v
theories/ArenaProofs.v
theories/GraphInv.v
theories/GraphPhases.v
theories/Redirect.v
theories/UnionFind.v
theories/CommitProofs.v
theories/Bidi.v
theories/CommitTop.v
theories/SpecProofs.v
theories/ArenaOps.v
theories/Slots.v
theories/Rebuild.v
theories/Switch.v
theories/World.v
theories/WorldInv.v
theories/PropDefs.v
theories/CommitThms.v
theories/BidiThms.v
theories/Panics.v
theories/TransSpec.v
theories/TransThms.v
theories/CommitMore.v
theories/TransHist.v
theories/Hist.v
theories/CommitFinal.v
theories/BidiFinal.v
theories/Grouped.v
theories/Exact.v
theories/Listed.v
theories/Exec.v
theories/Examples.v
theories/Owner.v
theories/ExecHist.v
theories/ExHist.v
theories/PropsCommit.v
theories/Decide.v
theories/PropsBidi.v
theories/GraphFinal.v
theories/PropsGraph.v
theories/TransFinal.v
theories/DecideValid.v
theories/ExTrans.v
theories/PropsTrans.v
theories/IdThreads.v
theories/PropsIds.v
theories/SerFinal.v
theories/SwitchFinal.v
theories/PropsSer.v
theories/Schema.v
theories/SchemaFacts.v
theories/DecideSchema.v
theories/PropsSchema.v
theories/PropsFindings.v
theories/PropsExact.v
theories/Api.v
theories/PropsApi.v
theories/PropsPanic.v
theories/RepoTests.v
theories/Order.v
theories/OrderHist.v
theories/Sim.v
theories/PropsOrder.v
theories/Commute.v
theories/PropsCommute.v
theories/PropsMore.v
theories/Tidy.v
theories/PropsTidy.v
theories/Display.v
theories/PropsDisplay.v
theories/Caught.v
theories/Fault.v
theories/PropsCaught.v
theories/PropsRedirect.v
theories/Release.v
theories/PropsSame.v
theories/Deser.v
theories/PropsDeser.v
theories/PropsSlots.v
theories/Stops.v
theories/PropsStops.v
theories/SwitchExact.v
theories/PropsSwitch.v
theories/Alike.v
theories/Alike2.v
theories/SwitchBidi.v
theories/AlikeRuns.v
theories/Known.v
theories/SameSucc.v
theories/PropsAlike.v
theories/PropsListed.v
theories/PropsSucc.v
theories/SetOrder.v
theories/PropsSets.v
theories/PropsKnown.v
theories/Cut.v
theories/Undo.v
theories/CutDel.v
theories/PropsCut.v
theories/PropsUndo.v
theories/Calls.v
theories/PropsCalls.v
theories/PropsLen.v
theories/Ask.v
theories/Inserts.v
theories/PropsAsk.v
theories/PropsInserts.v
theories/CommuteBidi.v
theories/PropsCommuteBidi.v
theories/DebugTrans.v
theories/PropsDebugTrans.v
theories/Machine.v
theories/MachineBidi.v
theories/MachineAll.v
theories/PropsMachine.v
theories/PropsMachineBidi.v
theories/PropsMachineAll.v
theories/Front.v
theories/FrontFacts.v
theories/PropsFront.v
theories/Mixing.v
theories/PropsMixing.v
theories/Text.v
theories/PropsText.v
theories/Types.v
theories/PropsTypes.v
theories/Threads.v
theories/PropsThreads.v
theories/Rename.v
theories/RenameBack.v
theories/PropsRename.v
