-Q theories Verif
theories/Str.v
theories/Exc.v
theories/Utf8.v
theories/UriParse.v
theories/BaseUri.v
theories/Mem.v
theories/Lines.v
theories/StrFacts.v
theories/Utf8Facts.v
theories/UriFacts.v
theories/SpecUri.v
theories/UriFacts2.v
theories/UriFacts3.v
theories/UriFacts4.v
theories/UriFacts5.v
theories/UriFacts6.v
theories/UriFacts7.v
theories/PropsUri.v
theories/SpecMem.v
theories/MemFacts.v
theories/MemFacts2.v
theories/MemFacts3.v
theories/MemFacts4.v
theories/MemFacts5.v
theories/MemFacts6.v
theories/MemFacts7.v
theories/SpecFile.v
theories/MemFacts8.v
theories/MemOps.v
theories/MemFacts9.v
theories/MemUri.v
theories/MemFacts10.v
theories/MemFacts11.v
theories/PropsMem.v
theories/PropsLines.v
theories/Generic.v
theories/SpecGen.v
theories/GenFacts1.v
theories/GenFacts2.v
theories/GenFacts3.v
theories/GenFacts4.v
theories/GenFacts5.v
theories/GenFacts6.v
theories/GenFacts7.v
theories/GenFacts8.v
theories/GenFacts9.v
theories/Fnmatch.v
theories/SpecFn.v
theories/FnFacts.v
theories/UriOps.v
theories/GenFacts10.v
theories/GenFacts11.v
theories/GenFacts12.v
theories/GenFacts13.v
theories/Enum.v
theories/PropsGeneric.v
theories/PropsCopy.v
theories/PropsWalk.v
theories/Registry.v
theories/RegistryConc.v
theories/SpecReg.v
theories/RegFacts.v
theories/RegFacts2.v
theories/RegFacts3.v
theories/RegFacts4.v
theories/PropsRegistry.v
theories/Locks.v
theories/LockFacts.v
theories/PropsLock.v
theories/Zip.v
theories/SpecZip.v
theories/ZipFacts.v
theories/ZipFacts2.v
theories/PropsZip.v
theories/ZipUse.v
theories/SpecZipUse.v
theories/PropsZipUse.v
theories/Misc.v
theories/PropsMisc.v
theories/Posix.v
theories/Local.v
theories/SpecLocal.v
theories/LocalFacts1.v
theories/LocalFacts2.v
theories/LocalFacts3.v
theories/LocalFacts4.v
theories/LocalFacts5.v
theories/LocalFacts6.v
theories/LocalFacts7.v
theories/LocalFacts8.v
theories/Program.v
theories/LocalFacts9.v
theories/LocalFacts10.v
theories/LocalFacts11.v
theories/LocalFacts12.v
theories/LocalFacts13.v
theories/PropsLocal.v
theories/LocalFacts14.v
theories/LocalFacts15.v
theories/LocalFacts16.v
theories/LocalFacts17.v
theories/PropsLocal2.v
theories/PropsLocal3.v
theories/PropsNames.v
theories/SpecHandle.v
theories/HandleFacts.v
theories/PropsHandle.v
theories/Dump.v
theories/SpecDump.v
theories/DumpFacts.v
theories/PropsDump.v
theories/World.v
theories/Pieces.v
theories/SpecWorld.v
theories/WorldFacts1.v
theories/WorldFacts2.v
theories/WorldFacts3.v
theories/WorldFacts4.v
theories/WorldFacts5.v
theories/WorldFacts6.v
theories/WorldFacts7.v
theories/PropsWorld.v
theories/UriFamily.v
theories/PropsFamily.v
theories/PropsSlash.v
theories/LockBlock.v
theories/PropsBlock.v
theories/LocalFacts18.v
theories/LocalFacts19.v
theories/WalkFacts.v
theories/SpecLinks.v
theories/LocalFacts20.v
theories/LocalFacts21.v
theories/LocalFacts22.v
theories/LocalFacts23.v
theories/LocalFacts24.v
theories/LocalFacts25.v
theories/PropsLinks.v
theories/Resp.v
theories/Resp2.v
theories/Prog.v
theories/MemTwin.v
theories/LocProg.v
theories/Net.v
theories/Pair.v
theories/LocTwin.v
theories/PropsExact.v
theories/PieceFacts.v
theories/PropsPieces.v
theories/SeeFacts.v
theories/PropsSee.v
theories/SpecKeep.v
theories/KeepFacts.v
theories/PropsKeep.v
theories/QueryFacts.v
theories/SpecAbove.v
theories/AboveFacts.v
theories/PropsAbove.v
theories/SpecExact.v
theories/ExactFacts.v
theories/ExactFacts2.v
theories/ExactFacts3.v
theories/PropsRules.v
theories/SpecCopy.v
theories/CopyFacts.v
theories/CopyFacts2.v
theories/CopyFacts3.v
theories/CopyFacts4.v
theories/CopyFacts5.v
theories/PropsRules2.v
theories/SpecUnquote.v
theories/UnquoteFacts.v
theories/SpecParse.v
theories/ParseFacts.v
theories/ParseFacts2.v
theories/ParseFacts3.v
theories/ParseFacts4.v
theories/PropsParse.v
theories/PropsUnquote.v
theories/SpecFamily.v
theories/PropsFamily2.v
theories/SpecNames.v
theories/NamesFacts.v
theories/PropsUriRules.v
theories/SpecPosix.v
theories/PosixFacts.v
theories/PosixFacts2.v
theories/MoveFacts.v
theories/SpecMove.v
theories/MoveFacts2.v
theories/PosixFacts3.v
theories/PropsPosix.v
theories/PropsMove.v
theories/SpecLocCopy.v
theories/LocCopyFacts.v
theories/PropsLocCopy.v
theories/SpecJoin.v
theories/JoinFacts.v
theories/PropsJoin.v
theories/SpecNet.v
theories/NetFacts.v
theories/NetFacts2.v
theories/NetFacts3.v
theories/NetFacts4.v
theories/NetFacts5.v
theories/NetFacts6.v
theories/NetFacts7.v
theories/NetFacts8.v
theories/PropsNet.v
theories/PropsUriConn.v
theories/Cleaner.v
theories/SpecCleaner.v
theories/PropsCleaner.v
theories/Attr.v
theories/SpecAttr.v
theories/PropsAttr.v
theories/Plugins.v
theories/SpecPlugins.v
theories/PropsPlugins.v
theories/Prune.v
theories/SpecPrune.v
theories/PropsPrune.v
theories/NetLock.v
theories/PropsNetLock.v
theories/WorkDir.v
theories/SpecWork.v
theories/PropsWork.v
theories/Busy.v
theories/SpecBusy.v
theories/BusyFacts.v
theories/PropsBusy.v
theories/Alike.v
theories/AuthFacts.v
theories/NetFacts9.v
theories/NetFacts10.v
theories/Version.v
theories/SpecVersion.v
theories/VersionFacts.v
theories/VersionFacts2.v
theories/VersionFacts3.v
theories/PropsVersion.v
theories/Plug.v
theories/SpecPlug.v
theories/PlugFacts.v
theories/PlugFacts2.v
theories/PropsPlug.v
theories/PropsZipClass.v
theories/TempFile.v
theories/SpecTemp.v
theories/PropsTemp.v
theories/SpecStay.v
theories/StayFacts.v
theories/StayFacts2.v
theories/StayFacts3.v
theories/PropsStay.v
theories/SpecInto.v
theories/IntoFacts.v
theories/IntoFacts2.v
theories/IntoFacts3.v
theories/IntoFacts4.v
theories/IntoFacts5.v
theories/IntoFacts6.v
theories/PropsInto.v
theories/SpecCalls.v
theories/CallsFacts.v
theories/CallsFacts2.v
theories/CallsFacts3.v
theories/PropsCalls.v
theories/SpecNetTwo.v
theories/NetFacts11.v
theories/NetFacts12.v
theories/PropsNetTwo.v
theories/UndoFacts.v
theories/PropsUndo.v
theories/SpecApart.v
theories/ApartFacts.v
theories/ApartFacts2.v
theories/ApartFacts3.v
theories/ApartFacts4.v
theories/ApartFacts5.v
theories/ApartFacts6.v
theories/ApartFacts7.v
theories/ApartFacts8.v
theories/PropsApart.v
theories/SpecHome.v
theories/HomeFacts1.v
theories/HomeFacts2.v
theories/HomeFacts3.v
theories/HomeFacts4.v
theories/PropsHome.v
theories/LocSteps.v
theories/SpecSteps.v
theories/StepFacts.v
theories/StepFacts2.v
theories/PropsSteps.v
theories/PropsStop.v
theories/PropsRetry.v
theories/PropsRetry2.v
theories/PropsRetry3.v
theories/PropsRetry4.v
