-Q theories Verif
theories/Base.v
theories/Utf8.v
theories/Float64.v
theories/Value.v
theories/Scan.v
theories/Unmarshal.v
theories/Pure.v
theories/ListLemmas.v
theories/PureProof.v
theories/UnmarshalProof.v
theories/SpecJson.v
theories/SpecValue.v
theories/SpecFacts.v
theories/Utf8Proof.v
theories/NumProof.v
theories/ParseComplete.v
theories/ParseFacts.v
theories/ValueLemmas.v
theories/ExampleDoc.v
theories/ParseMore.v
theories/PropParse.v
theories/Opt.v
theories/Marshal.v
theories/SpecText.v
theories/SpecOrder.v
theories/SpecOut.v
theories/SortProof.v
theories/EscapeProof.v
theories/SpecLax.v
theories/MarshalProof.v
theories/LaxNum.v
theories/OrderProof.v
theories/LaxParse.v
theories/ExampleWorld.v
theories/RoundTrip.v
theories/NumFacts.v
theories/SeqProof.v
theories/LaxFacts.v
theories/MarshalFacts.v
theories/IndentProof.v
theories/Defaults.v
theories/SpecOpts.v
theories/MarshalClaims.v
theories/MarshalExamples.v
theories/LaxClaims.v
theories/PropLax.v
theories/PropMarshal.v
theories/Access.v
theories/Path.v
theories/Edit.v
theories/SpecPath.v
theories/PathProof.v
theories/EditProof.v
theories/SetProof.v
theories/SetClaims.v
theories/SpecReach.v
theories/SetExact.v
theories/ForgetProof.v
theories/EditClaims.v
theories/PropEdit.v
theories/SpecGet.v
theories/GetProof.v
theories/GetClaims.v
theories/PropGet.v
theories/SpecHistory.v
theories/HistoryProof.v
theories/HistoryClaims.v
theories/OrderHistory.v
theories/PropHistory.v
theories/SpecNum.v
theories/Compare.v
theories/CompareProof.v
theories/CompareClaims.v
theories/SpecTaken.v
theories/CompareExact.v
theories/PropCompare.v
theories/SpecIter.v
theories/Iter.v
theories/IterProof.v
theories/PropIter.v
theories/SpecContain.v
theories/Contain.v
theories/ContainProof.v
theories/PropContain.v
theories/SpecBase64.v
theories/Base64.v
theories/Base64Proof.v
theories/PropBase64.v
theories/Pool.v
theories/PoolProof.v
theories/PropPool.v
theories/SpecNil.v
theories/MarshalTotal.v
theories/GoValue.v
theories/Import.v
theories/SpecImport.v
theories/ImportProof.v
theories/ImportTotal.v
theories/SpecFault.v
theories/ImportFault.v
theories/ExampleImport.v
theories/PropImport.v
theories/Heap.v
theories/SpecHeap.v
theories/HeapProof.v
theories/HeapCopy.v
theories/HeapGraph.v
theories/HeapClaims.v
theories/PropHeap.v
theories/HeapTree.v
theories/SpecShare.v
theories/KeyText.v
theories/SpecKeyText.v
theories/KeyTextProof.v
theories/PropKeyText.v
theories/NewObject.v
theories/SpecNewObject.v
theories/NewObjectProof.v
theories/PropNewObject.v
theories/SpecSafe.v
theories/SafeProof.v
theories/PropSafe.v
theories/SpecFloatText.v
theories/FloatTextProof.v
theories/ExactFormat.v
theories/ShortText.v
theories/PropFloatText.v
theories/JsonLax.v
theories/SpecLit.v
theories/LitExact.v
theories/PropExact.v
theories/SpecSpell.v
theories/OutSpell.v
theories/OutExact.v
theories/SpecHole.v
theories/OutClaims.v
theories/OutHole.v
theories/OutExamples.v
theories/RoundExact.v
theories/PropSpell.v
theories/SpecFlags.v
theories/FlagsExact.v
theories/PropFlags.v
theories/SpecExport.v
theories/Export.v
theories/ExportProof.v
theories/ExportImport.v
theories/ExportExact.v
theories/ExportExamples.v
theories/PropExport.v
theories/HeapReload.v
theories/ReloadClaims.v
theories/PropReload.v
theories/HeapShare.v
theories/PropShare.v
theories/KeyMem.v
theories/SpecKeys.v
theories/KeyProof.v
theories/ParentProof.v
theories/KeyExamples.v
theories/PropKeys.v
theories/TestKit.v
theories/TestEdit.v
theories/TestParse.v
theories/TestMarshal.v
theories/SpecRound.v
theories/RoundProof.v
theories/RoundClaims.v
theories/PropRound.v
theories/Typed.v
theories/SpecTyped.v
theories/TypedProof.v
theories/PropTyped.v
theories/SpecStdFloat.v
theories/StdFloatProof.v
theories/PropStdFloat.v
theories/LaxSame.v
theories/SpecCanon.v
theories/CanonProof.v
theories/CanonExamples.v
theories/PropCanon.v
theories/SpecFormat.v
theories/FormatProof.v
theories/PropFormat.v
theories/SpecLaws.v
theories/LawsProof.v
theories/LawsClaims.v
theories/LawsText.v
theories/LawsExamples.v
theories/PropLaws.v
theories/SpecFinite.v
theories/FiniteProof.v
theories/FiniteEntry.v
theories/FiniteExamples.v
theories/PropFinite.v
theories/SpecPanic.v
theories/PanicProof.v
theories/PanicMore.v
theories/PropPanic.v
theories/SpecParts.v
theories/PartsProof.v
theories/PartsMore.v
theories/PartsRest.v
theories/ExampleParts.v
theories/PropParts.v
theories/SpecHarbour.v
theories/HarbourProof.v
theories/ExampleHarbour.v
theories/PropHarbour.v
theories/RangeEdit.v
theories/SpecRangeEdit.v
theories/RangeEditProof.v
theories/RangeMapProof.v
theories/RangeEditClaims.v
theories/ExampleRangeEdit.v
theories/PropRangeEdit.v
theories/ConcRead.v
theories/SpecConcRead.v
theories/ConcReadProof.v
theories/ExampleConcRead.v
theories/PropConcRead.v
theories/NoCopy.v
theories/SpecNoCopy.v
theories/NoCopyProof.v
theories/NoCopyClaims.v
theories/ExampleNoCopy.v
theories/PropNoCopy.v
theories/SpecErrors.v
theories/ErrorsProof.v
theories/ExampleErrors.v
theories/PropErrors.v
theories/SpecCut.v
theories/CutProof.v
theories/PropCut.v
theories/SpecParseErrors.v
theories/ParseErrorsProof.v
theories/PropParseErrors.v
theories/Stack.v
theories/SpecStack.v
theories/StackProof.v
theories/PropStack.v
theories/SpecSize.v
theories/SizeProof.v
theories/PropSize.v
theories/SpecTwin.v
theories/TwinProof.v
theories/TwinFloat.v
theories/PropTwin.v
theories/Names.v
theories/SpecNames.v
theories/NamesProof.v
theories/PropNames.v
theories/Cost.v
theories/CostProof.v
theories/PropCost.v
theories/TypeProof.v
theories/SpecSeq.v
theories/StructOrder.v
theories/PropStructOrder.v
theories/SpecWhole.v
theories/WholeProof.v
theories/PropWhole.v
theories/SpecIgnore.v
theories/IgnoreProof.v
theories/PropIgnore.v
theories/SpecBulk.v
theories/BulkProof.v
theories/PropBulk.v
theories/SpecCompete.v
theories/CompeteProof.v
theories/ExampleCompete.v
theories/PropCompete.v
theories/SpecApart.v
theories/ApartProof.v
theories/ApartExamples.v
theories/PropApart.v
theories/SpecLess.v
theories/LessProof.v
theories/DupWrap.v
theories/LessExamples.v
theories/PropLess.v
theories/SpecLayout.v
theories/LayoutProof.v
theories/PropLayout.v
theories/FailProof.v
theories/PropFail.v
theories/StackOut.v
theories/StackOutProof.v
theories/PropStackOut.v
theories/SpecPieces.v
theories/PiecesProof.v
theories/PropPieces.v
theories/Writer.v
theories/WriterProof.v
theories/PropWriter.v
theories/SpecOmit.v
theories/OmitCanonProof.v
theories/PropOmitCanon.v
theories/SpecSplice.v
theories/SpliceProof.v
theories/SpliceOmitProof.v
theories/PropSplice.v
theories/PropSpliceOmit.v
theories/SpecReading.v
theories/ReadingProof.v
theories/PropReading.v
theories/SpecSetSplice.v
theories/SetSpliceProof.v
theories/PropSetSplice.v
theories/SpecNamePath.v
theories/ContainOrder.v
theories/PropContainOrder.v
theories/OmitTextProof.v
theories/PropOmitText.v
theories/OmitMoreProof.v
theories/PropOmitMore.v
theories/SpecSave.v
theories/SaveProof.v
theories/AbreastProof.v
theories/SaveOrderProof.v
theories/SaveOmitProof.v
theories/PropSave.v
