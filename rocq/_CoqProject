-Q theories Verif
theories/Base.v
theories/NodeOps.v
theories/HeapOps.v
theories/TxnOps.v
theories/TreeOps.v
theories/Cost.v
theories/IterOps.v
theories/Erase.v
theories/World.v
theories/Spec.v
theories/SpecDom.v
theories/Enc.v
theories/EncOps.v
theories/EncOps2.v
theories/EncRead.v
theories/Rep.v
theories/Search.v
theories/Wp.v
theories/Insert.v
theories/Insert2.v
theories/Insert3.v
theories/Insert4.v
theories/Insert5.v
theories/Witness.v
theories/Refute.v
theories/Conform.v
theories/Properties_Refuted.v
theories/Delete.v
theories/Delete2.v
theories/Delete3.v
theories/Top.v
theories/Linear.v
theories/PropMap.v
theories/Own.v
theories/Frame.v
theories/Views.v
theories/WorldInv.v
theories/Observe.v
theories/Twin.v
theories/PropWorld.v
theories/Properties_World.v
theories/Prims.v
theories/PropHist.v
theories/Properties_Hist.v
theories/Properties_Map.v
theories/SpecRead.v
theories/ReadRep.v
theories/ReadTop.v
theories/ReadLow.v
theories/Thin.v
theories/ReadLow2.v
theories/ReadRev.v
theories/ReadEr.v
theories/PropRead.v
theories/PropDom.v
theories/SpecReuse.v
theories/PropReuse.v
theories/Properties_Dom.v
theories/Properties_Reuse.v
theories/Properties_Read.v
theories/PropSeek.v
theories/PropLow.v
theories/Holder.v
theories/ReadRev2.v
theories/PropRev.v
theories/Properties_Seek.v
theories/Properties_Low.v
theories/Properties_Rev.v
theories/SpecWalk.v
theories/Clean.v
theories/ReadWalk.v
theories/PropWalk.v
theories/Properties_Walk.v
theories/SpecWorld.v
theories/WorldRef.v
theories/PropWorldRef.v
theories/Properties_WorldRef.v
theories/Concurrency.v
theories/Slices.v
theories/PropConc.v
theories/Properties_Conc.v
theories/Tag.v
theories/Keep.v
theories/KeepCh.v
theories/Cells.v
theories/MarkSim.v
theories/Fires.v
theories/WatchOp.v
theories/KeepN.v
theories/NodeCh.v
theories/NodeWatch.v
theories/NodePath.v
theories/SpecWatch.v
theories/WatchWorld.v
theories/NodeOp.v
theories/NodeWorld.v
theories/NodeAbsent.v
theories/ChanKind.v
theories/ChanOps.v
theories/ChanRec.v
theories/ChanWorld.v
theories/PropWatch.v
theories/Properties_Watch.v
theories/SpecGraph.v
theories/Fuel.v
theories/Rank.v
theories/Acyclic.v
theories/PropRank.v
theories/Properties_Rank.v
theories/Prog.v
theories/ProgEq.v
theories/ProgOwn.v
theories/Machine.v
theories/MachineInv.v
theories/PropRace.v
theories/Properties_Race.v
theories/SpecLossy.v
theories/AbsDel.v
theories/SpecAbsent.v
theories/AbsDel2.v
theories/Ghost.v
theories/Ghost2.v
theories/PropAbsDel.v
theories/PropLossy.v
theories/Properties_Lossy.v
theories/Properties_AbsDel.v
theories/SpecPrefix.v
theories/DelPre.v
theories/Cov.v
theories/DelPre2.v
theories/DelPre3.v
theories/DelPre4.v
theories/PropDelPre.v
theories/Properties_DelPre.v
theories/PropDelIter.v
theories/Properties_DelIter.v
theories/Sim.v
theories/NodeRel.v
theories/ProgRel.v
theories/SpecSerial.v
theories/SerialWorld.v
theories/HeapRel.v
theories/Serial.v
theories/SpecReads.v
theories/ReadRel.v
theories/ReadAlike.v
theories/ReadTotal.v
theories/PropSerial.v
theories/SpecConcMap.v
theories/ConcMap.v
theories/PropConcMap.v
theories/Properties_Serial.v
theories/Properties_ConcMap.v
theories/SpecSize.v
theories/PropSize.v
theories/Properties_Size.v
theories/PropAbsent.v
theories/Properties_Absent.v
theories/SpecDfs.v
theories/ReadDfs.v
theories/PropDfs.v
theories/Properties_Dfs.v
theories/SpecScan.v
theories/ReadDfs2.v
theories/WorldClean.v
theories/PropScan.v
theories/Properties_Scan.v
theories/SpecLine.v
theories/PropLine.v
theories/PropClone.v
theories/PropSeq.v
theories/Properties_Line.v
