-Q theories Verif
theories/Base.v
theories/TrieModel.v
theories/DomModel.v
theories/ParserModel.v
theories/EditModel.v
theories/ReadModel.v
theories/Lemmas.v
theories/TrieProofs.v
theories/Tables.v
theories/Inv.v
theories/Surgery.v
theories/DomSpec.v
theories/Attach.v
theories/Replace.v
theories/Link.v
theories/RegProofs.v
theories/ParseSafe.v
theories/ParseTree.v
theories/ParseLoop.v
theories/Walk.v
theories/EditProofs.v
theories/EditOps.v
theories/EditHtml.v
theories/NodeEdit.v
theories/ReadLeak.v
theories/AttrProofs.v
theories/ApiSpec.v
theories/ApiProofs.v
theories/NoJump.v
theories/EditUser.v
theories/EditUserHtml.v
theories/Grow.v
theories/ReadUser.v
theories/Examples.v
theories/PropsParse.v
theories/PropsRead.v
theories/EditEmpty.v
theories/PropsEdit.v
theories/MsiModel.v
theories/MsiProofs.v
theories/UsetProofs.v
theories/QueryModel.v
theories/QuerySpec.v
theories/QueryProofs.v
theories/QueryTotal.v
theories/QueryParse.v
theories/QueryUser.v
theories/QueryRel.v
theories/PropsQuery.v
theories/CompareModel.v
theories/CompareSpec.v
theories/CompareProofs.v
theories/DuplicateModel.v
theories/DuplicateProofs.v
theories/PropsCompare.v
theories/MemModel.v
theories/MemProofs.v
theories/MemSpec.v
theories/PoolProofs.v
theories/PropsMemory.v
theories/LogModel.v
theories/PrintModel.v
theories/LogSpec.v
theories/LogProofs.v
theories/PropsLog.v
theories/PrintSpec.v
theories/PrintProofs.v
theories/PropsPrint.v
theories/UtilTrieModel.v
theories/UtilTrieProofs.v
theories/PropsTrie.v
theories/Links.v
theories/CounterModel.v
theories/PathModel.v
theories/PathProofs.v
theories/PropsUtil.v
theories/GrammarSpec.v
theories/GrammarScan.v
theories/GrammarText.v
theories/GrammarTag.v
theories/GrammarLoop.v
theories/GrammarUser.v
theories/GrammarMore.v
theories/PropsGrammar.v
theories/RoundSpec.v
theories/RoundProofs.v
theories/PropsRound.v
theories/BuddyModel.v
theories/BuddySpec.v
theories/BuddyProofs.v
theories/BuddyUser.v
theories/PropsBuddy.v
theories/FileModel.v
theories/PropsFile.v
theories/MemCost.v
theories/SizeSpec.v
theories/Size.v
theories/SizeEdit.v
theories/PropsSize.v
theories/CrashModel.v
theories/CrashAgree.v
theories/CrashDebris.v
theories/CrashWalk.v
theories/CrashSpec.v
theories/CrashRead.v
theories/CrashLink.v
theories/CrashOps.v
theories/CrashHtml.v
theories/CrashUser.v
theories/CrashFacts.v
theories/CrashThms.v
theories/PropsCrash.v
theories/ReaderSpec.v
theories/QueryBad.v
theories/ReaderScan.v
theories/ReaderTag.v
theories/ReaderText.v
theories/ReaderLoop.v
theories/ReaderUser.v
theories/PropsReader.v
theories/OriginSpec.v
theories/ReaderFacts.v
theories/ReaderGrammar.v
theories/ReaderOrigin.v
theories/ReaderLocal.v
theories/TreeSpec.v
theories/TreeProofs.v
theories/TreeStep.v
theories/TreeOps.v
theories/TreeNumber.v
theories/TreeHtml.v
theories/TreeReplace.v
theories/TreeUser.v
theories/TreeLaws.v
theories/TreeLawsUser.v
theories/PropsTree.v
theories/SelectorSpec.v
theories/SelectorRead.v
theories/SelectorUser.v
theories/SelectorTree.v
theories/PropsSelector.v
theories/NodeUser.v
theories/LifeSpec.v
theories/Life.v
theories/Moves.v
theories/LifeUser.v
theories/PropsLife.v
theories/ReportModel.v
theories/ReportSpec.v
theories/ReportEach.v
theories/ReportDiff.v
theories/ReportStatus.v
theories/PropsReport.v
theories/TraceModel.v
theories/ArenaSpec.v
theories/TraceProofs.v
theories/TraceMem.v
theories/TraceUser.v
theories/PropsArena.v
theories/Zeroed.v
theories/ReplaceBad.v
theories/ParentTab.v
theories/ParentOps.v
theories/PropsParents.v
theories/DoubleModel.v
theories/DoubleSpec.v
theories/DoubleProofs.v
theories/PropsDouble.v
theories/TraceEditModel.v
theories/SessionSpec.v
theories/TraceEditProofs.v
theories/TraceEditMem.v
theories/TraceEditOps.v
theories/TraceEditText.v
theories/TraceEditUser.v
theories/PropsSession.v
theories/SaveModel.v
theories/SaveProofs.v
theories/PropsSave.v
theories/CrashPrint.v
theories/PropsCrashPrint.v
theories/QueryAny.v
theories/QueryAnyTotal.v
theories/CrashSearch.v
theories/CrashSame.v
theories/PropsCrashQuery.v
theories/RecoverSpec.v
theories/CrashRecover.v
theories/PropsRecover.v
theories/CrashRetry.v
theories/DupMemModel.v
theories/DupSpec.v
theories/DupMem.v
theories/DupProofs.v
theories/DupUser.v
theories/PropsDup.v
theories/DupRoom.v
theories/QueryMemModel.v
theories/AskSpec.v
theories/QueryMemProofs.v
theories/QueryMemSafe.v
theories/PropsAsk.v
theories/QueryRoom.v
theories/AskRoom.v
