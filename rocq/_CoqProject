-Q theories Verif
theories/HwTypes.v
theories/SMap.v
theories/SMapProofs.v
theories/Lifecycle.v
theories/ConflictModel.v
theories/ConflictProofs.v
theories/CMModel.v
theories/CMSpec.v
theories/CMInv.v
theories/CMTrace.v
theories/CMCycle.v
theories/CMSwitch.v
theories/CMLife.v
theories/CMSession.v
theories/CMExcl.v
theories/CMHooks.v
theories/CMLoad.v
theories/CMRest.v
theories/CMFinal.v
theories/PropsCM.v
theories/CMSeqSpec.v
theories/CMSeq.v
theories/CMOnce.v
theories/CMDo.v
theories/PropsSeq.v
theories/RaceModel.v
theories/RaceSpec.v
theories/RaceProofs.v
theories/ConcModel.v
theories/ConcSpec.v
theories/ConcProofs.v
theories/PropsRace.v
theories/PropsConc.v
theories/HwModel.v
theories/HwSpec.v
theories/HwProofs.v
theories/HwMgr.v
theories/HwBuilt.v
theories/HwInit.v
theories/HwClaims.v
theories/PropsHw.v
theories/HandleModel.v
theories/HandleSpec.v
theories/HandleProofs.v
theories/PropsHandle.v
theories/CombModel.v
theories/CombSpec.v
theories/CombProofs.v
theories/PropsComb.v
theories/SysModel.v
theories/SysSpec.v
theories/SysProofs.v
theories/SysInv.v
theories/SysMain.v
theories/SysRest.v
theories/SysLoad.v
theories/PropsSys.v
theories/JointHwModel.v
theories/JointHwSpec.v
theories/JointHwProofs.v
theories/PropsJoint.v
theories/LimModel.v
theories/LimLaws.v
theories/LimExact.v
theories/LimDouble.v
theories/LimSpec.v
theories/LimProofs.v
theories/LimRest.v
theories/LimGain.v
theories/LimDGain.v
theories/LimMisc.v
theories/LimLoop.v
theories/LimNearSpec.v
theories/LimNear.v
theories/PropsLim.v
theories/PropsNear.v
theories/TransModel.v
theories/TransSpec.v
theories/TransProofs.v
theories/TransHandle.v
theories/TransExact.v
theories/TransDouble.v
theories/PropsTrans.v
theories/TransFrame.v
theories/TransMake.v
theories/PropsMake.v
theories/ParseModel.v
theories/LoadModel.v
theories/LoadSpec.v
theories/ParseProofs.v
theories/LoadProofs.v
theories/LoadMain.v
theories/LoadSep.v
theories/LoadVars.v
theories/LoadKept.v
theories/PropsLoad.v
theories/ScriptModel.v
theories/ScriptSpec.v
theories/ScriptProofs.v
theories/ScriptMain.v
theories/ScriptConflict.v
theories/ScriptRun.v
theories/PropsScript.v
theories/SpawnModel.v
theories/SpawnProofs.v
theories/PropsSpawn.v
theories/UtilsModel.v
theories/UtilsSpec.v
theories/UtilsProofs.v
theories/PropsUtils.v
theories/RqtModel.v
theories/RqtSpec.v
theories/RqtProofs.v
theories/RqtMenu.v
theories/PropsRqt.v
theories/LoopModel.v
theories/LoopSpec.v
theories/LoopProofs.v
theories/LoopLimits.v
theories/PropsLoop.v
theories/SendSpec.v
theories/SendProofs.v
theories/PropsSend.v
theories/FollowSpec.v
theories/FollowProofs.v
theories/PropsFollow.v
theories/FineModel.v
theories/FineSpec.v
theories/FineBase.v
theories/FineRel.v
theories/FineLoop.v
theories/FineManage.v
theories/FineLock.v
theories/FineSwitch.v
theories/FineMain.v
theories/PropsFine.v
theories/FineAccess.v
theories/FineFrame.v
theories/FineWait.v
theories/PropsFineRace.v
theories/FineProgress.v
theories/PropsFineProgress.v
theories/TransRound.v
theories/RowSpec.v
theories/TransRows.v
theories/PropsRound.v
theories/LimBackSpec.v
theories/LimBack.v
theories/PropsBack.v
theories/CliModel.v
theories/CliSpec.v
theories/CliProofs.v
theories/PropsCli.v
theories/GroupModel.v
theories/GroupSpec.v
theories/GroupProofs.v
theories/PropsGroup.v
theories/TalkSpec.v
theories/TalkProofs.v
theories/PropsTalk.v
