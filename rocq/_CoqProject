-Q theories Verif
theories/Base.v
theories/Prog.v
theories/Poly.v
theories/SpecPerm.v
theories/Spec.v
theories/RefPerm.v
theories/Words.v
theories/AsconProof.v
theories/KeccakProof.v
theories/Mem.v
theories/RefIsap.v
theories/Vocab.v
theories/VocabIv.v
theories/MemProof.v
theories/RefLib.v
theories/Sponge.v
theories/RefProof.v
theories/RefAead.v
theories/SpecFacts.v
theories/Api.v
theories/ApiProps.v
theories/ExLib.v
theories/Trace.v
theories/ShortCt.v
theories/RefTrace.v
theories/RefTrace2.v
theories/PropsRef.v
theories/ExTrace.v
theories/PropsRef2.v
theories/Bij.v
theories/LibProof.v
theories/SpecProps.v
theories/PropsPerm.v
theories/OptPerm.v
theories/OptRep.v
theories/OptPermProof.v
theories/ApiCode.v
theories/OptIsap.v
theories/ApiProof.v
theories/Vocab2.v
theories/OptLanes.v
theories/OptProof.v
theories/OptImpl.v
theories/OptEx.v
theories/PropsOpt.v
theories/OptStp.v
theories/StpProof.v
theories/StpEx.v
theories/PropsStp.v
theories/A128Perm.v
theories/A128PermProof.v
theories/A128.v
theories/A128Proof.v
theories/A128Impl.v
theories/PropsA128.v
theories/KRound.v
theories/K64Perm.v
theories/K64PermProof.v
theories/KIsap.v
theories/KIsapProof.v
theories/VocabK.v
theories/ExtProof.v
theories/K64Impl.v
theories/PropsK64.v
theories/KAvxPerm.v
theories/KAvxProof.v
theories/KAvxImpl.v
theories/PropsKAvx.v
theories/KArmPerm.v
theories/KArmPermProof.v
theories/KArm.v
theories/KArmProof.v
theories/KArmImpl.v
theories/PropsKArm.v
theories/AvxA.v
theories/AvxAProof.v
theories/AvxAEnc.v
theories/AvxAImpl.v
theories/PropsAvxA.v
theories/Table.v
theories/TableProof.v
theories/PropsAll.v
theories/Ct.v
theories/OptCt.v
theories/ApiCt.v
theories/A128Ct.v
theories/KCt.v
theories/KArmCt.v
theories/AvxACt.v
theories/TableCt.v
theories/PropsCt.v
theories/StpCt.v
theories/PropsStpCt.v
theories/Kat.v
theories/LenWrap.v
theories/LenTail.v
theories/LenAvx.v
theories/PropsLen.v
theories/ShortUb.v
theories/ShortImpl.v
theories/PropsShort.v
theories/Genkat.v
theories/VocabKat.v
theories/GenkatProof.v
theories/GenkatImpl.v
theories/GenkatMore.v
theories/PropsKat.v
theories/OptGen.v
theories/VocabV7m.v
theories/V7mPerm.v
theories/V7mImpl.v
theories/V7mCt.v
theories/PropsV7m.v
theories/VocabAlign.v
theories/AlignEq.v
theories/AlignK.v
theories/MisUb.v
theories/AlignImpl.v
theories/PropsAlign.v
theories/ArmIsa.v
theories/ArmAsm.v
theories/ArmSim.v
theories/ArmLoop.v
theories/VocabAsm.v
theories/ArmFun.v
theories/ArmPermFun.v
theories/ArmPerm7.v
theories/ArmPerm6.v
theories/ArmBytes.v
theories/ArmZero.v
theories/ArmTrap.v
theories/ArmEx.v
theories/PropsAsm.v
theories/InAsm.v
theories/VocabInAsm.v
theories/InAsmProof.v
theories/PropsInAsm.v
theories/Script.v
theories/VocabScript.v
theories/ScriptProof.v
theories/PropsScript.v
theories/Getcycles.v
theories/VocabGet.v
theories/GetProof.v
theories/GetPrint.v
theories/PropsGet.v
theories/Probe.v
theories/VocabProbe.v
theories/ProbeProof.v
theories/ProbeTop.v
theories/PropsProbe.v
theories/Timeall.v
theories/VocabTime.v
theories/TimeProof.v
theories/PropsTime.v
theories/Debug.v
theories/DebugProof.v
theories/PropsDebug.v
theories/KMem.v
theories/KMemProof.v
theories/KMemApi.v
theories/PropsKMem.v
theories/OptProbe.v
theories/VocabOptProbe.v
theories/ApiProbe.v
theories/OptProbeProof.v
theories/OptProbeTop.v
theories/PropsOptProbe.v
theories/A128Probe.v
theories/A128ProbeProof.v
theories/A128ProbeTop.v
theories/PropsA128Probe.v
theories/KProbe.v
theories/KProbeProof.v
theories/KProbeTop.v
theories/PropsKProbe.v
theories/KArmProbe.v
theories/KArmProbeProof.v
theories/KArmProbeTop.v
theories/PropsKArmProbe.v
theories/AvxAProbe.v
theories/VocabAvxProbe.v
theories/AvxAProbeProof.v
theories/AvxAEncProbe.v
theories/AvxAProbeTop.v
theories/PropsAvxAProbe.v
theories/ByteOrder.v
theories/VocabOrder.v
theories/ByteOrderProof.v
theories/PropsByteOrder.v
theories/Config.v
theories/VocabConfig.v
theories/ConfigProof.v
theories/PropsConfig.v
theories/BigEndian.v
theories/VocabBig.v
theories/BigEndianProof.v
theories/BigEndianTrace.v
theories/PropsBigEndian.v
theories/Proto.v
theories/ProtoProof.v
theories/PropsProto.v
