-Q theories Verif
theories/Base.v
theories/Iter.v
theories/CharMap.v
theories/CodePages.v
theories/Charset.v
theories/TextScanner.v
theories/XmlScanner.v
theories/Ideal.v
theories/ReaderSim.v
theories/ScannerSim.v
theories/IterSim.v
theories/CharsetSpec.v
theories/CharsetProofs.v
theories/ReadSpec.v
theories/ReadProofs.v
theories/ChunkRead.v
theories/CharsetMore.v
theories/IterProofs.v
theories/PropsText.v
theories/ScanSpec.v
theories/ScanProofs.v
theories/CharReader.v
theories/Safety.v
theories/FuelMono.v
theories/ChunkScan.v
theories/ChunkTop.v
theories/Term.v
theories/GrammarSpec.v
theories/Grammar.v
theories/ScanTop.v
theories/GrammarTop.v
theories/PropsScan.v
theories/DocSpec.v
theories/SectSpec.v
theories/OpenSpec.v
theories/DocProofs.v
theories/DocScan.v
theories/DocTop.v
theories/OpenScan.v
theories/DocCheck.v
theories/PropsDoc.v
theories/PropsOpen.v
theories/StaticBuffer.v
theories/TagStack.v
theories/Except.v
theories/BufProofs.v
theories/PropsUtil.v
theories/Memory.v
theories/MemSpec.v
theories/MemProofs.v
theories/PropsMemory.v
theories/IterDiff.v
theories/PropsDiff.v
theories/XmlPrinter.v
theories/CstrSim.v
theories/PrintSpec.v
theories/PrintProofs.v
theories/PrintChars.v
theories/PrintDoc.v
theories/PropsPrint.v
theories/TokenSpec.v
theories/MaskProofs.v
theories/CopyProofs.v
theories/PosProofs.v
theories/XmlIter.v
theories/PropsToken.v
theories/XmlHdr.v
theories/HdrSpec.v
theories/HdrProofs.v
theories/HdrExact.v
theories/PropsHdr.v
theories/PathAtm.v
theories/PathSelect.v
theories/PathSpec.v
theories/PathDesc.v
theories/PathProg.v
theories/PathTrie.v
theories/PathKill.v
theories/PathRun1.v
theories/PathRun2.v
theories/PathRun3.v
theories/PathRun4.v
theories/PathRun5.v
theories/PathRun6.v
theories/PathRun7.v
theories/PathRun8.v
theories/PathRun9.v
theories/PathRun10.v
theories/PathBuild.v
theories/PathBuild2.v
theories/PathBuild3.v
theories/PathBuild4.v
theories/PathDescSep.v
theories/PathNames.v
theories/PathMatch.v
theories/PathTags.v
theories/PathContext.v
theories/PathAfter.v
theories/PropsPath.v
theories/PathParse.v
theories/ParseSpec.v
theories/ParseRead.v
theories/ParseList.v
theories/ParseGram.v
theories/ParseRun.v
theories/ParseTop.v
theories/PropsParse.v
theories/PropsDesc.v
theories/PropsRange.v
theories/PipeSpec.v
theories/PipeProofs.v
theories/PropsSelect.v
theories/PathExtra.v
theories/PathCopy.v
theories/PropsCopy.v
theories/PathInspect.v
theories/InspectSpec.v
theories/InspectSafe.v
theories/InspectPaths.v
theories/PropsInspect.v
theories/Names.v
theories/PropsNames.v
theories/SourceFwd.v
theories/SourceSim.v
theories/SourceCstr.v
theories/SourceBack.v
theories/PropsSource.v
theories/EndsSpec.v
theories/Ends.v
theories/PropsEnds.v
theories/StdStream.v
theories/StdSim.v
theories/PropsStd.v
theories/XmlSpec.v
theories/XmlTok.v
theories/XmlRuns.v
theories/XmlTotal.v
theories/XmlTop.v
theories/PropsXml.v
theories/BytesSpec.v
theories/BytesProofs.v
theories/PropsBytes.v
theories/PropsKinds.v
theories/PropsPipe.v
theories/PropsHdrScan.v
theories/PropsMore.v
theories/ParseSafe.v
theories/PropsParseSafe.v
theories/PrintSelect.v
theories/PropsPrintSelect.v
theories/Output.v
theories/PropsOutput.v
theories/TagAlloc.v
theories/PropsAlloc.v
theories/PropsRestore.v
theories/Examples.v
theories/ExampleSpec.v
theories/ExampleProofs.v
theories/ExampleSelect.v
theories/PropsExamples.v
theories/PropsReset.v
theories/PropsKey.v
theories/PropsRemask.v
theories/StrictIter.v
theories/StrictProofs.v
theories/PropsStrict.v
theories/ClientSpec.v
theories/ClientProofs.v
theories/TestText.v
theories/TestTextProofs.v
theories/PropsTest.v
theories/TestProgs.v
theories/TestSpec.v
theories/TestProgsProofs.v
theories/PropsTest2.v
theories/AtmMemory.v
theories/AtmValue.v
theories/AtmMemProofs.v
theories/AtmHeapProofs.v
theories/PropsAtmMem.v
theories/AtmPrint.v
theories/PropsAtmPrint.v
theories/SelSafe.v
theories/TestSelect.v
theories/TestSelectProofs.v
theories/SelectTestSpec.v
theories/PropsTest3.v
theories/PropsTest4.v
theories/PropsXmlIter.v
theories/AtmFail.v
theories/AtmFailProof.v
theories/PropsAtmFail.v
theories/AtmFailMem.v
theories/AtmFailMemSpec.v
theories/AtmFailMemProof.v
theories/PropsAtmFailMem.v
theories/SelGrowSpec.v
theories/SelGrow.v
theories/SelGrow2.v
theories/PropsSelGrow.v
theories/PathIter.v
theories/PathIterSpec.v
theories/PathIterProof.v
theories/PropsPathIter.v
theories/SelFail.v
theories/SelFailProof.v
theories/PropsSelFail.v
theories/AtmFailCopy.v
theories/AtmFailCopySpec.v
theories/AtmFailCopyProof.v
theories/PropsAtmFailCopy.v
theories/PrintFail.v
theories/PrintFailSpec.v
theories/PrintFailProof.v
theories/PropsPrintFail.v
theories/XmlFail.v
theories/XmlFailSpec.v
theories/XmlFailProof.v
theories/XmlFailCall.v
theories/PropsXmlFail.v
theories/MemFail.v
theories/MemFailSpec.v
theories/MemFailProof.v
theories/PropsMemFail.v
theories/Retry.v
theories/RetrySpec.v
theories/RetryScan.v
theories/RetryRead.v
theories/RetryIter.v
theories/PropsRetry.v
theories/StrictChunk.v
theories/PropsStrictChunk.v
theories/PropsWrap.v
