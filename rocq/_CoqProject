-Q theories Verif
theories/Str.v
theories/Types.v
theories/Combin.v
theories/Num.v
theories/Printer.v
theories/Lex.v
theories/PStr.v
theories/PNum.v
theories/Parser.v
theories/Fmt.v
theories/Api.v
theories/Utf8.v
theories/Data.v
theories/ApiSpec.v
theories/ApiProofs.v
theories/FmtProofs.v
theories/PropsApi.v
theories/Sane.v
theories/SaneP.v
theories/ParseProofs.v
theories/PropsParse.v
theories/Grow.v
theories/StrSpec.v
theories/Grammar.v
theories/Run.v
theories/SoundLex.v
theories/SoundStr.v
theories/SoundVal.v
theories/SoundDoc.v
theories/RoundSpec.v
theories/RoundProofs.v
theories/PropsRound.v
theories/Lang.v
theories/Fwd.v
theories/CompLex.v
theories/CompStr.v
theories/CompMl.v
theories/CompVal.v
theories/CompEnt.v
theories/CompDoc.v
theories/TextSpec.v
theories/TextProofs.v
theories/PrintLang.v
theories/PropsText.v
theories/FloatRound.v
theories/FloatProofs.v
theories/FloatDec.v
theories/FloatText.v
theories/FloatSpec.v
theories/FloatNearest.v
theories/PropsFloat.v
theories/PrintDoc.v
theories/PropsBuild.v
theories/Trivia.v
theories/FmtText.v
theories/FmtShape.v
theories/PropsFmt.v
theories/PropsCanon.v
theories/PropsIdem.v
theories/PropsClear.v
theories/Layout.v
theories/PropsLayout.v
theories/V2.v
theories/PropsV2.v
theories/ExactStr.v
theories/ExactVal.v
theories/ExactDoc.v
theories/Spell.v
theories/PropsExact.v
theories/PropsChars.v
theories/PropsNum.v
theories/SingleProofs.v
theories/Single.v
theories/SingleSpec.v
theories/Serde.v
theories/Se.v
theories/ESe.v
theories/De.v
theories/SerdeSpec.v
theories/SerdeProofs.v
theories/SerdeRound.v
theories/SerdeText.v
theories/PropsSerde.v
theories/ApiMore.v
theories/PropsMore.v
theories/Rest.v
theories/Kept.v
theories/KeptParse.v
theories/Edit.v
theories/PropsEdit.v
theories/PropsV2Text.v
theories/DeSpec.v
theories/DeProofs.v
theories/PropsDe.v
theories/LDe.v
theories/SeSpec.v
theories/SeErrSpec.v
theories/SeProofs.v
theories/SeErrProofs.v
theories/PropsSe.v
theories/PropsSeErr.v
theories/PropsUtf8.v
theories/Join.v
theories/PropsJoin.v
theories/PropsPrinted.v
theories/Respace.v
theories/Slash.v
theories/PropsSlash.v
theories/DCombin.v
theories/DParser.v
theories/DErase.v
theories/DEmit.v
theories/DiagSpec.v
theories/DCat.v
theories/PropsDiag.v
theories/LDeProofs.v
theories/LocSpec.v
theories/LocProofs.v
theories/PropsLoc.v
theories/AnyDe.v
theories/PropsAny.v
theories/SuiteData.v
theories/Suite.v
theories/PropsSingle.v
theories/RepoTests.v
theories/Cost.v
theories/CostSpec.v
theories/Blind.v
theories/CostProofs.v
theories/CostBound.v
theories/CostGrow.v
theories/CostMark.v
theories/PropsCost.v
theories/PropsCases.v
theories/Tight.v
theories/PropsTight.v
theories/V1.v
theories/V1Test.v
theories/PropsDetect.v
theories/PropsV1.v
theories/PropsV1Ensure.v
theories/KeptEntry.v
theories/PropsKeep.v
theories/PropsV1Fmt.v
theories/Lsp.v
theories/PropsLsp.v
theories/PropsLspServer.v
theories/PropsFmtText.v
theories/Query.v
theories/PropsQuery.v
theories/PropsQuerySem.v
theories/PropsQueryMatch.v
theories/QueryParse.v
theories/PropsQueryParse.v
theories/OldValue.v
theories/PropsOldValue.v
