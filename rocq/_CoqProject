-Q theories Verif
theories/Bytes.v
theories/Outcome.v
theories/Stream.v
theories/Tokenizer.v
theories/QuotedPrintable.v
theories/Base64.v
theories/EncodedWord.v
theories/TagList.v
theories/MailParser.v
theories/Canonicalization.v
theories/Util.v
theories/CStdlib.v
theories/Crypto.v
theories/Signature.v
theories/PublicKey.v
theories/Resolver.v
theories/SignatoryOptions.v
theories/Signatory.v
theories/Validatory.v
theories/KeyHandles.v
theories/Examples.v
theories/Conformance.v
theories/BytesFacts.v
theories/StreamFacts.v
theories/TokenizerFacts.v
theories/Base64Facts.v
theories/QPFacts.v
theories/SpecText.v
theories/SpecSig.v
theories/SigFacts.v
theories/SigProps.v
theories/TagPosition.v
theories/VerifyFacts.v
theories/SpecParse.v
theories/SpecKey.v
theories/KeyFacts.v
theories/VerifyProps.v
theories/KeyExact.v
theories/SigExact.v
theories/ResultClass.v
theories/VerifyExamples.v
theories/PropsVerify.v
theories/PropsClass.v
theories/SpecBase64.v
theories/Base64Bits.v
theories/PropsCodec.v
theories/ListFacts.v
theories/ListExact.v
theories/ListWide.v
theories/SpecAddress.v
theories/AddressFacts.v
theories/AddressParse.v
theories/PropsText.v
theories/SpecTags.v
theories/TagListFacts.v
theories/PropsTags.v
theories/SpecMail.v
theories/MailFacts.v
theories/PropsMail.v
theories/SpecCanon.v
theories/BodyFacts.v
theories/BodyProps.v
theories/PropsBody.v
theories/HeaderFacts.v
theories/HeaderProps.v
theories/SpecVerify.v
theories/SelectFacts.v
theories/PropsHeader.v
theories/PropsSignature.v
theories/SpecDns.v
theories/ResolverFacts.v
theories/ResolverCut.v
theories/ResolverExact.v
theories/ResolverExamples.v
theories/PropsDns.v
theories/SpecOptions.v
theories/OptionsFacts.v
theories/SigOptFacts.v
theories/PropsOptions.v
theories/SignNumbers.v
theories/SpecSign.v
theories/SignText.v
theories/SignFacts.v
theories/SignMail.v
theories/SignRound.v
theories/SignProps.v
theories/SignExamples.v
theories/PropsSign.v
theories/SpecWord.v
theories/WordFacts.v
theories/WordExact.v
theories/PropsWord.v
theories/SpecHandles.v
theories/KeyHandleFacts.v
theories/PropsHandles.v
theories/AddressClean.v
theories/SafetyFacts.v
theories/MoreFacts.v
theories/PropsMore.v
theories/Tool.v
theories/SpecTool.v
theories/ToolFacts.v
theories/ToolSign.v
theories/ToolArgs.v
theories/ToolMain.v
theories/ToolExamples.v
theories/PropsTool.v
theories/FieldForm.v
theories/SpecBinding.v
theories/BindingFacts.v
theories/BindingList.v
theories/BindingRead.v
theories/BindingProps.v
theories/BindingExamples.v
theories/PropsBinding.v
theories/SpecFields.v
theories/FieldsProps.v
theories/FieldsExamples.v
theories/SenderFacts.v
theories/FieldLines.v
theories/PropsFields.v
theories/SpecTransit.v
theories/TransitFacts.v
theories/TransitExamples.v
theories/PropsTransit.v
theories/SpecPass.v
theories/PassFacts.v
theories/PropsPass.v
theories/DefaultFacts.v
theories/PropsDefault.v
theories/SpecAddressAll.v
theories/AddressWide.v
theories/AddressEndless.v
theories/PropsAddress.v
theories/SpecTransport.v
theories/TransportFacts.v
theories/TransportExamples.v
theories/PropsTransport.v
theories/AddedFacts.v
theories/FrontExact.v
theories/PropsAdded.v
theories/SpecOutcome.v
theories/LoneFacts.v
theories/OutcomeFacts.v
theories/OutcomeExamples.v
theories/PropsOutcome.v
theories/SpecDepth.v
theories/DepthFacts.v
theories/PropsDepth.v
theories/ToolText.v
theories/SpecReport.v
theories/ReportFacts.v
theories/ReportExamples.v
theories/PropsReport.v
theories/ResolverPtr.v
theories/ResolverPtrFacts.v
theories/SignatoryHeap.v
theories/SpecHeap.v
theories/HeapFacts.v
theories/PropsPointer.v
theories/SharedStream.v
theories/SpecShared.v
theories/SharedFacts.v
theories/PropsShared.v
theories/OptionObjects.v
theories/SpecObjects.v
theories/ObjectsFacts.v
theories/PropsObjects.v
theories/EndsFacts.v
theories/PropsEnds.v
theories/Work.v
theories/SpecWork.v
theories/WorkFacts.v
theories/ListWork.v
theories/PropsWork.v
theories/ToolAsk.v
theories/SpecAsk.v
theories/AskFacts.v
theories/AskMany.v
theories/PropsAsk.v
theories/FailingReads.v
theories/SpecBad.v
theories/BadFacts.v
theories/PropsBad.v
theories/SpecRfc.v
theories/RfcFacts.v
theories/RfcExamples.v
theories/RfcKey.v
theories/PropsRfc.v
theories/ErrorText.v
theories/SpecError.v
theories/ErrorFacts.v
theories/ErrorQP.v
theories/ErrorTags.v
theories/ErrorList.v
theories/ErrorCases.v
theories/PropsError.v
theories/SpecMime.v
theories/MimeFacts.v
theories/PropsMime.v
theories/SpecReuse.v
theories/ReuseTags.v
theories/ReuseFacts.v
theories/ReuseKeys.v
theories/ReuseExamples.v
theories/PropsReuse.v
theories/SpecStream.v
theories/GlueFacts.v
theories/Reasons.v
theories/SpecReason.v
theories/ShownFacts.v
theories/ReasonFacts.v
theories/ReasonSig.v
theories/ReasonKeys.v
theories/ReasonCheck.v
theories/ReasonText.v
theories/ReasonOne.v
theories/ReasonExamples.v
theories/PropsReason.v
theories/SpecRelaxed.v
theories/RelaxedFacts.v
theories/PropsRelaxed.v
theories/SpecMade.v
theories/MadeFacts.v
theories/MadeExamples.v
theories/PropsMade.v
theories/SignReasons.v
theories/SpecStop.v
theories/StopFacts.v
theories/SpecSignTool.v
theories/StopTool.v
theories/StopExamples.v
theories/PropsStop.v
theories/AddressText.v
theories/SpecAddressError.v
theories/AddressErrors.v
theories/AddressRefused.v
theories/AddressPlaces.v
theories/PropsAddressError.v
theories/SpecEight.v
theories/EightFacts.v
theories/EightExact.v
theories/EightVerify.v
theories/EightExamples.v
theories/PropsEight.v
theories/SpecVerdict.v
theories/VerdictFacts.v
theories/VerdictCore.v
theories/ToolNumbers.v
theories/VerdictRun.v
theories/VerdictExamples.v
theories/PropsVerdict.v
theories/Program.v
theories/SpecProgram.v
theories/ProgramFacts.v
theories/ProgramExamples.v
theories/PropsProgram.v
theories/SpecFar.v
theories/FarFacts.v
theories/FarExamples.v
theories/PropsFar.v
theories/BodyWork.v
theories/SpecRead.v
theories/ReadFacts.v
theories/ReadMany.v
theories/PropsRead.v
theories/Format.v
theories/SpecFormat.v
theories/FormatFacts.v
theories/PropsFormat.v
theories/IntDepth.v
theories/SpecOverflow.v
theories/OverflowFacts.v
theories/OverflowList.v
theories/OverflowMore.v
theories/PropsOverflow.v
theories/SpecAllows.v
theories/AllowFacts.v
theories/PropsAllows.v
theories/SpecChecked.v
theories/FarMore.v
theories/HeadWork.v
theories/HeadBounds.v
theories/HeadMany.v
theories/PropsHashed.v
theories/SpecRelay.v
theories/RelayFacts.v
theories/RelayExamples.v
theories/PropsRelay.v
theories/TagWork.v
theories/TagWorkFacts.v
theories/PropsTagWork.v
theories/Locale.v
theories/SpecLocale.v
theories/LocaleFacts.v
theories/LocaleExamples.v
theories/PropsLocale.v
theories/SpecLooked.v
theories/LookedFacts.v
theories/LookedExamples.v
theories/PropsLooked.v
theories/Posix.v
theories/SpecPosix.v
theories/PosixFacts.v
theories/PosixExamples.v
theories/PropsPosix.v
theories/SpecSplice.v
theories/SpliceFacts.v
theories/SpliceExamples.v
theories/PropsSplice.v
theories/Narrow.v
theories/SpecNarrow.v
theories/NarrowFacts.v
theories/NarrowExamples.v
theories/PropsNarrow.v
theories/SpecLegible.v
theories/ReadBack.v
theories/ReadBackExamples.v
theories/AddressWork.v
theories/AddressWorkFacts.v
theories/PropsAddressWork.v
theories/WordWork.v
theories/WordWorkFacts.v
theories/PropsWordWork.v
theories/AnswerWork.v
theories/AnswerWorkFacts.v
theories/PropsAnswerWork.v
theories/SpecLines.v
theories/LinesFacts.v
theories/LinesExamples.v
theories/PropsLines.v
theories/SpecJoin.v
theories/JoinFacts.v
theories/PropsJoin.v
