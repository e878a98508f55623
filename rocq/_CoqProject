-Q theories Verif
theories/Fermat.v
theories/Prime.v
theories/Fld.v
theories/GoModel.v
theories/GoFacts.v
theories/Rist.v
theories/RistFacts.v
theories/RistInst.v
theories/HashModel.v
theories/HashFacts.v
theories/P_Hash.v
theories/MerkleModel.v
theories/SpecMerkle.v
theories/MerkleFacts.v
theories/MerkleProps.v
theories/MerkleTamper.v
theories/SliceModel.v
theories/SliceFacts.v
theories/AliasModel.v
theories/SpecAlias.v
theories/AliasFacts.v
theories/P_Alias.v
theories/P_Merkle.v
theories/SpecVector.v
theories/VectorModel.v
theories/VectorFacts.v
theories/ReadModel.v
theories/ReadFacts.v
theories/VectorProps.v
theories/P_Vector.v
theories/PedersenModel.v
theories/SpecPedersen.v
theories/PedersenFacts.v
theories/PedersenProps.v
theories/P_Pedersen.v
theories/InnerProductModel.v
theories/SpecIPP.v
theories/InnerProductFacts.v
theories/IPPVerifyFacts.v
theories/IPPProps.v
theories/IPPWeak.v
theories/P_IPPWeak.v
theories/SpecSound.v
theories/Poly.v
theories/IPSound.v
theories/RangeSound.v
theories/SoundPoints.v
theories/IPPMore.v
theories/P_InnerProduct.v
theories/GlobModel.v
theories/RangeProofModel.v
theories/SpecRange.v
theories/SpecHonest.v
theories/GlobFacts.v
theories/RangeFacts.v
theories/RangeProveFacts.v
theories/RangeRun.v
theories/RangeProps.v
theories/RangeMore.v
theories/RangeHiding.v
theories/AnyMFacts.v
theories/P_RangeProof.v
theories/P_RangeHiding.v
theories/P_RangeExamples.v
theories/SpecOrder.v
theories/SpecRewind.v
theories/SoundOrder.v
theories/RewindIP.v
theories/RewindRange.v
theories/RewindHonest.v
theories/GenericFacts.v
theories/P_Rewind.v
theories/SpecFork.v
theories/ForkFacts.v
theories/ForkAttack.v
theories/P_Fork.v
theories/SpecBlFork.v
theories/BlForkFacts.v
theories/P_BlFork.v
theories/SpecRing.v
theories/RingMore.v
theories/P_Ring.v
theories/SpecRangeSim.v
theories/RangeSim.v
theories/P_RangeSim.v
theories/P_Sound.v
theories/P_Order.v
theories/SpecMlsag.v
theories/MlsagModel.v
theories/MlsagSessions.v
theories/MlsagFacts.v
theories/MlsagProve.v
theories/MlsagProps.v
theories/MlsagAttain.v
theories/MlsagHeap.v
theories/MlsagHeapFacts.v
theories/P_Mlsag.v
theories/P_MlsagAttain.v
theories/BlsagModel.v
theories/SpecBlsag.v
theories/BlsagFacts.v
theories/P_Blsag.v
theories/Base64Model.v
theories/SpecBase64.v
theories/Base64Facts.v
theories/P_Base64.v
theories/Bn.v
theories/BnInst.v
theories/BlsModel.v
theories/SpecBls.v
theories/BlsSessions.v
theories/BlsFacts.v
theories/BlsOps.v
theories/BlsProps.v
theories/BlsHeapFacts.v
theories/BlsSep.v
theories/BlsMore.v
theories/BlsObj.v
theories/P_Bls.v
theories/P_BlsObj.v
theories/SpecStream.v
theories/StreamFacts.v
theories/P_Stream.v
theories/SpecDecode.v
theories/DecodeFacts.v
theories/P_Decode.v
theories/RecvModel.v
theories/SpecRecv.v
theories/RecvFacts.v
theories/RecvMore.v
theories/P_Recv.v
theories/SpecFS.v
theories/RaceFacts.v
theories/P_Race.v
theories/SpecRoot.v
theories/RootFacts.v
theories/P_Root.v
theories/SpecVecCom.v
theories/VecComFacts.v
theories/P_VecCom.v
theories/NoKeysFacts.v
theories/SpecPlace.v
theories/PlaceFacts.v
theories/P_Place.v
theories/SpecCanon.v
theories/CanonFacts.v
theories/P_Canon.v
theories/SpecTx.v
theories/TxFacts.v
theories/P_Tx.v
theories/SpecOracle.v
theories/OracleFacts.v
theories/P_Oracle.v
theories/SpecKnow.v
theories/KnowFacts.v
theories/P_Know.v
theories/MlsagRaw.v
theories/MlsagRawFacts.v
theories/P_MlsagRaw.v
theories/SpecRogue.v
theories/RogueFacts.v
theories/P_Rogue.v
theories/SpecCross.v
theories/CrossFacts.v
theories/P_Cross.v
theories/P_Work.v
theories/SpecReuse.v
theories/ReuseFacts.v
theories/P_Reuse.v
theories/SpecSeen.v
theories/P_Seen.v
theories/SpecMove.v
theories/MoveFacts.v
theories/P_Move.v
theories/ShareModel.v
theories/ShareFacts.v
theories/P_Share.v
theories/SpecLost.v
theories/LostFacts.v
theories/P_Lost.v
theories/P_Steps.v
theories/SpecBare.v
theories/BareFacts.v
theories/P_Bare.v
theories/SpecBuild.v
theories/BuildFacts.v
theories/P_Build.v
theories/SpecTrunc.v
theories/TruncFacts.v
theories/TruncTail.v
theories/P_Trunc.v
theories/P_Cut.v
