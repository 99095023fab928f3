-Q theories Verif
theories/Base.v
theories/M_BigNum.v
theories/S_BigNum.v
theories/L_BigNum.v
theories/L_BigNumP.v
theories/P_BigNum.v
theories/M_RecordIO.v
theories/S_RecordIO.v
theories/L_RecordIO.v
theories/L_Lines.v
theories/P_RecordIO.v
theories/M_Dec.v
theories/L_Dec.v
theories/M_Shard.v
theories/S_Shard.v
theories/L_Shard.v
theories/L_Merge.v
theories/M_Process.v
theories/L_Process.v
theories/P_Shard.v
theories/M_Num.v
theories/L_Mod.v
theories/S_Num.v
theories/L_Num.v
theories/P_Num.v
theories/M_Csv.v
theories/S_Csv.v
theories/L_Csv.v
theories/L_Db.v
theories/L_Path.v
theories/P_Csv.v
theories/M_Simul.v
theories/L_Simul.v
theories/S_Exp.v
theories/L_Exp.v
theories/M_EC.v
theories/L_EC.v
theories/L_Toy.v
theories/M_Shanks.v
theories/L_Shanks.v
theories/P_Exp.v
theories/L_NT.v
theories/M_DJ.v
theories/L_DJ.v
theories/M_Paillier.v
theories/S_Paillier.v
theories/L_Paillier.v
theories/L_PaillierKey.v
theories/P_Paillier.v
theories/M_Proto.v
theories/M_CS.v
theories/S_CS.v
theories/L_CS.v
theories/P_CS.v
theories/M_Group.v
theories/M_Cipher.v
theories/M_ElGamal.v
theories/S_Group.v
theories/S_Cipher.v
theories/S_ElGamal.v
theories/L_Group.v
theories/L_Cipher.v
theories/L_ElGamal.v
theories/P_Group.v
theories/P_Cipher.v
theories/P_ElGamal.v
theories/M_Protocol.v
theories/S_Protocol.v
theories/L_Protocol.v
theories/P_Protocol.v
theories/M_Pedersen.v
theories/S_Pedersen.v
theories/L_Pedersen.v
theories/P_Pedersen.v
theories/M_Wire.v
theories/L_Wire.v
theories/M_VRF.v
theories/S_VRF.v
theories/L_VRF.v
theories/P_VRF.v
theories/M_BB.v
theories/L_BBct.v
theories/L_BBhom.v
theories/L_BBped.v
theories/L_BBreq.v
theories/L_BBrsp.v
theories/S_BB.v
theories/L_BB.v
theories/P_BB.v
theories/P_BBhash.v
theories/P_Proto.v
theories/S_BBquery.v
theories/L_BBsound.v
theories/P_BBsound.v
theories/S_Safe.v
theories/P_Safe.v
theories/L_Within.v
theories/L_BBsafe.v
theories/S_SafeProof.v
theories/P_SafeProof.v
theories/P_Forge.v
theories/M_KeyFile.v
theories/S_KeyFile.v
theories/L_KeyFile.v
theories/P_KeyFile.v
theories/M_File.v
theories/S_File.v
theories/P_File.v
theories/P_Multi.v
theories/S_Hide.v
theories/L_Hide.v
theories/P_Hide.v
theories/S_HideBB.v
theories/L_HideRsp.v
theories/L_HideReq.v
theories/P_HideBB.v
theories/L_HideCom.v
theories/P_HideCom.v
theories/S_HideSum.v
theories/L_Jacobi.v
theories/L_HideSum.v
theories/L_HideReply.v
theories/L_HideLeak.v
theories/P_HideSum.v
theories/S_HideKey.v
theories/L_HideKey.v
theories/P_HideKey.v
theories/S_HideMask.v
theories/L_HideMix.v
theories/L_HideMask.v
theories/P_HideMask.v
theories/S_HideView.v
theories/L_HideView.v
theories/P_HideView.v
theories/S_Cheat.v
theories/L_Cheat.v
theories/L_CheatRsp.v
theories/P_Cheat.v
theories/S_BBrequest.v
theories/L_ZPow.v
theories/L_BBrequest.v
theories/L_BBopen.v
theories/L_BBissue.v
theories/P_BBrequest.v
theories/L_Resplit.v
theories/P_Resplit.v
theories/S_Oracle.v
theories/L_Oracle.v
theories/P_Oracle.v
theories/P_VRFbind.v
theories/S_Fork.v
theories/L_Fork.v
theories/P_Fork.v
theories/L_Euler.v
theories/M_Conc.v
theories/S_Conc.v
theories/L_Conc.v
theories/P_Conc.v
theories/S_Zk.v
theories/L_Zk.v
theories/S_ZkQuery.v
theories/P_Zk.v
theories/P_ZkBB.v
theories/P_ZkGuess.v
theories/P_ZkGuessBB.v
theories/S_Ddh.v
theories/L_Ddh.v
theories/L_Programmed.v
theories/P_Ddh.v
theories/S_Dcr.v
theories/L_DcrUnits.v
theories/S_ClientView.v
theories/L_Dcr.v
theories/L_ClientView.v
theories/P_ClientView.v
theories/S_ServerView.v
theories/L_ServerView.v
theories/L_TwoServers.v
theories/L_Collide.v
theories/P_ServerView.v
theories/S_Secrecy.v
theories/L_Secrecy.v
theories/P_Secrecy.v
theories/M_ProcessFault.v
theories/S_ProcessFault.v
theories/L_ProcessFault.v
theories/P_ProcessFault.v
theories/M_Dummy.v
theories/S_Dummy.v
theories/L_Dummy.v
theories/P_Dummy.v
theories/L_Toy2.v
theories/M_Java.v
theories/M_Python.v
theories/S_Port.v
theories/L_Port.v
theories/L_PortMix.v
theories/P_Port.v
theories/P_Convert.v
theories/M_PyNum.v
theories/S_PyNum.v
theories/L_PyNum.v
theories/L_PyNumRes.v
theories/P_PyNum.v
theories/M_PyPrng.v
theories/S_PyPrng.v
theories/L_PyPrng.v
theories/P_PyPrng.v
theories/M_PyInt.v
theories/P_PyInt.v
theories/M_RecordObj.v
theories/S_RecordObj.v
theories/L_RecordObj.v
theories/P_RecordObj.v
theories/M_LineObj.v
theories/P_LineObj.v
theories/M_PyPoint.v
theories/S_PyPoint.v
theories/L_PyPoint.v
theories/P_PyPoint.v
theories/M_Dir.v
theories/S_Dir.v
theories/L_Dir.v
theories/P_Dir.v
theories/S_PubHide.v
theories/L_PubHide.v
theories/P_PubHide.v
theories/S_Uniform.v
theories/L_Uniform.v
theories/P_Uniform.v
theories/P_VrfView.v
theories/P_UniformKeys.v
theories/M_Race.v
theories/S_Race.v
theories/L_Race.v
theories/P_Race.v
theories/P_RspView.v
theories/L_PrivUniform.v
theories/P_PrivUniform.v
theories/M_Init.v
theories/S_Init.v
theories/L_Init.v
theories/P_Init.v
theories/S_ShardSize.v
theories/L_ShardSize.v
theories/P_ShardSize.v
theories/S_ShardNames.v
theories/L_ShardNames.v
theories/P_ShardNames.v
theories/M_Merger.v
theories/L_Merger.v
theories/P_Merger.v
theories/L_ProcessAny.v
theories/P_ProcessAny.v
theories/L_MergerAny.v
theories/P_MergerAny.v
