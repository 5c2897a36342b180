-Q theories Verif
theories/Base.v
theories/ByteString.v
theories/ByteStringProofs.v
theories/PropBytes.v
theories/Field.v
theories/FieldProofs.v
theories/UInteger.v
theories/PropField.v
theories/StrMap.v
theories/Dec.v
theories/Policy.v
theories/Lsss.v
theories/LsssSpec.v
theories/LsssProofs.v
theories/LsssScan.v
theories/LsssShare.v
theories/LsssAlgebra.v
theories/LsssRecover.v
theories/LsssUse.v
theories/LsssPrivacy.v
theories/LsssFinal.v
theories/PropLsss.v
theories/Scanner.v
theories/Driver.v
theories/Parser.v
theories/Grammar.v
theories/ParserSound.v
theories/ParserRun.v
theories/PolicySyntax.v
theories/ParserComplete.v
theories/ParserTop.v
theories/Lexical.v
theories/ScannerProofs.v
theories/PolicyMeaning.v
theories/NumProofs.v
theories/NumTree.v
theories/PolicyTruth.v
theories/AttrMeaning.v
theories/ParserSafe.v
theories/CreatePolicy.v
theories/CreateAttrs.v
theories/ParserFinal.v
theories/AttrUse.v
theories/PolicyUse.v
theories/AttrList.v
theories/PrintParse.v
theories/ListText.v
theories/TextUse.v
theories/Calendar.v
theories/DateProofs.v
theories/PropParser.v
theories/Base64.v
theories/Base64Proofs.v
theories/Kdf.v
theories/KdfProofs.v
theories/Utils.v
theories/PropUtil.v
theories/HashAttrs.v
theories/HashProofs.v
theories/HashUse.v
theories/PropHash.v
theories/Container.v
theories/ContainerSpec.v
theories/ContainerProofs.v
theories/ContainerLoad.v
theories/PropContainer.v
theories/Keystore.v
theories/KeystoreSpec.v
theories/KeystoreProofs.v
theories/PropKeystore.v
theories/Keymgr.v
theories/KeymgrSpec.v
theories/KeymgrProofs.v
theories/KeymgrUse.v
theories/PropKeymgr.v
theories/Sym.v
theories/SymSpec.v
theories/SymProofs.v
theories/SymCtx.v
theories/PropSym.v
theories/Scheme.v
theories/SchemeSpec.v
theories/SchemeRows.v
theories/SchemeStep.v
theories/Travel.v
theories/SchemeCp.v
theories/SchemeKp.v
theories/SchemeFrame.v
theories/DeliverySpec.v
theories/SchemeToy.v
theories/NoThrow.v
theories/SchemeUse.v
theories/SchemeFirm.v
theories/SchemeKeep.v
theories/SchemeSession.v
theories/SchemeTravel.v
theories/PropScheme.v
theories/SchemeHarm.v
theories/PropContext.v
theories/CollusionSpec.v
theories/CollusionShape.v
theories/CollusionCp.v
theories/CollusionCpCut.v
theories/CollusionKp.v
theories/CollusionKpCut.v
theories/CollusionReach.v
theories/PropCollusion.v
theories/PropDelivery.v
theories/Query.v
theories/FindSpec.v
theories/FindProofs.v
theories/PropFind.v
theories/Threads.v
theories/ThreadsSpec.v
theories/ThreadsProofs.v
theories/PropThreads.v
theories/Library.v
theories/LibrarySpec.v
theories/PropLibrary.v
theories/PlainSpec.v
theories/PlainProofs.v
theories/PropPlain.v
theories/FreshSpec.v
theories/FreshProofs.v
theories/PropFresh.v
theories/Pke.v
theories/PkeSpec.v
theories/PropPke.v
theories/Memory.v
theories/MemorySpec.v
theories/MemoryInv.v
theories/MemoryAct.v
theories/MemoryRun.v
theories/MemoryParse.v
theories/MemoryProg.v
theories/PropMemory.v
theories/ContMem.v
theories/ContMemSpec.v
theories/ContMemProofs.v
theories/PropContMem.v
theories/Element.v
theories/ElementSpec.v
theories/PropElement.v
theories/FuncInput.v
theories/PropList.v
theories/SymKeys.v
theories/NonceSpec.v
theories/PropNonce.v
theories/NetworkSpec.v
theories/Network.v
theories/NetworkStore.v
theories/NetworkProofs.v
theories/PropNetwork.v
theories/Factory.v
theories/PropErrors.v
theories/Residue.v
theories/PropResidue.v
theories/Size.v
theories/OutlineSpec.v
theories/Outline.v
theories/PropSize.v
theories/SharedCtx.v
theories/SharedSpec.v
theories/SharedProofs.v
theories/PropShared.v
theories/PropAlgebra.v
theories/PropCodes.v
theories/Depth.v
theories/PropDepth.v
theories/PairRoom.v
theories/PropRoom.v
theories/MaskRoom.v
theories/PropMask.v
theories/Buffer.v
theories/BufferProofs.v
theories/PropBuffer.v
theories/Printed.v
theories/PropPrinted.v
theories/Work.v
theories/WorkProofs.v
theories/LoopWork.v
theories/PropWork.v
theories/StoreMem.v
theories/PropStoreMem.v
theories/ContWrite.v
theories/PropContWrite.v
theories/StreamMem.v
theories/PropStreamMem.v
theories/OneShot.v
theories/PropOneShot.v
theories/ExportMem.v
theories/PropExportMem.v
