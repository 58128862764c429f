-Q theories Verif
theories/Bytes.v
theories/Grammar.v
theories/Peg.v
theories/Attempts.v
theories/Cost.v
theories/Result.v
theories/Ast.v
theories/Splicer.v
theories/Image.v
theories/Convert.v
theories/Dockerfile.v
theories/Stage.v
theories/Enquote.v
theories/Programs.v
theories/Order.v
theories/Conformance.v
theories/BytesFacts.v
theories/EnquoteFacts.v
theories/SpecImage.v
theories/ImageFacts.v
theories/SpecSplice.v
theories/SplicerFacts.v
theories/SplicerSafe.v
theories/SplicerOuter.v
theories/SpecNested.v
theories/NestedFacts.v
theories/SubstFacts.v
theories/SpecStage.v
theories/StageFacts.v
theories/SpecDoc.v
theories/DocFacts.v
theories/PegFacts.v
theories/SpecSyntax.v
theories/PegRules.v
theories/PegTokens.v
theories/PegQuoted.v
theories/Sound.v
theories/SoundRules.v
theories/SoundInstr.v
theories/SoundDoc.v
theories/SpecParts.v
theories/PartsFacts.v
theories/SpecLayout.v
theories/LayoutFacts.v
theories/ParseFacts.v
theories/SelectFacts.v
theories/SpecClear.v
theories/Forward.v
theories/Forward2.v
theories/Forward3.v
theories/ListFacts.v
theories/Forward4.v
theories/Forward5.v
theories/SpecMove.v
theories/MoveFacts.v
theories/Shift.v
theories/Swap.v
theories/ConvertMove.v
theories/SwapParse.v
theories/SwapDoc.v
theories/EditFacts.v
theories/ParseEdit.v
theories/RewriteFacts.v
theories/CostFacts.v
theories/DepthFacts.v
theories/Twin.v
theories/Once.v
theories/ConvertSame.v
theories/TwinDoc.v
theories/Spelt.v
theories/Oracle.v
theories/SpecLines.v
theories/Lines.v
theories/LinesDoc.v
theories/Local.v
theories/Idle.v
theories/SpecJoin.v
theories/AttemptsFacts.v
theories/Mirror.v
theories/JoinDoc.v
theories/JoinError.v
theories/SpecOrder.v
theories/OrderFacts.v
theories/PropsImage.v
theories/PropsSplice.v
theories/PropsStage.v
theories/PropsDoc.v
theories/PropsParse.v
theories/PropsEdit.v
theories/PropsNested.v
theories/PropsComplete.v
theories/PropsRewrite.v
theories/PropsPrograms.v
theories/PropsCost.v
theories/PropsTwin.v
theories/PropsLocal.v
theories/PropsOrder.v
theories/PropsJoin.v
theories/PropsLines.v
theories/PropsBlocks.v
theories/PropsContinue.v
theories/PropsResolve.v
theories/PropsQuoted.v
theories/PropsWrite.v
theories/PropsError.v
theories/PropsFail.v
theories/PropsForm.v
theories/PropsReject.v
theories/SpecExact.v
theories/Exact.v
theories/Exact2.v
theories/Exact3.v
theories/Exact4.v
theories/Exact5.v
theories/Exact6.v
theories/Exact7.v
theories/Exact8.v
theories/Exact9.v
theories/PropsExact.v
theories/SpecFail.v
theories/Fail1.v
theories/Fail2.v
theories/Fail3.v
theories/Fail4.v
theories/PropsOutcome.v
theories/SpecTried.v
theories/TriedFacts.v
theories/PropsTried.v
theories/Messages.v
theories/PropsMessages.v
theories/SpecReword.v
theories/EqSwap.v
theories/ConvertReword.v
theories/RewordDoc.v
theories/RewordFacts.v
theories/PropsReword.v
theories/SpecRename.v
theories/PropsRename.v
theories/PropsAgain.v
theories/SpecArgument.v
theories/WordSwap.v
theories/ArgumentDoc.v
theories/PropsArgument.v
theories/SpecAlias.v
theories/AliasDoc.v
theories/NamesFacts.v
theories/PropsAlias.v
theories/SpecChanges.v
theories/ChangesFacts.v
theories/ChangesNames.v
theories/PropsChanges.v
theories/SpecValues.v
theories/ReadsMove.v
theories/ValuesFacts.v
theories/ValuesDoc.v
theories/PropsValues.v
theories/SpecSteps.v
theories/StepsFacts.v
theories/PropsSteps.v
theories/SpecKeys.v
theories/KeysFacts.v
theories/KeysDoc.v
theories/PropsKeys.v
theories/SpecActs.v
theories/ActsFacts.v
theories/PropsActs.v
theories/SpecGrow.v
theories/GrowFacts.v
theories/GrowDoc.v
theories/PropsGrow.v
theories/SpecShrink.v
theories/ShrinkFacts.v
theories/FrontFacts.v
theories/ShrinkDoc.v
theories/PropsShrink.v
theories/PropsFront.v
