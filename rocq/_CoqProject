-Q theories Verif
theories/Model/Bnf.v
theories/Model/Codec.v
theories/Model/Curie.v
theories/Model/Dataset.v
theories/Model/DatasetFeed.v
theories/Model/DatasetLoop.v
theories/Model/DatasetReaders.v
theories/Model/DatasetRun.v
theories/Model/DatasetThreads.v
theories/Model/Graph.v
theories/Model/GraphFeed.v
theories/Model/GraphKeys.v
theories/Model/GraphLoop.v
theories/Model/GraphReaders.v
theories/Model/GraphRun.v
theories/Model/GraphScan.v
theories/Model/GraphThreads.v
theories/Model/JsonLd.v
theories/Model/JsonLdRun.v
theories/Model/JsonLdThreads.v
theories/Model/NTStream.v
theories/Model/NTriples.v
theories/Model/Py.v
theories/Model/RdfXml.v
theories/Model/Repr.v
theories/Model/Resource.v
theories/Model/ResourceRun.v
theories/Model/ResourceVal.v
theories/Model/Skos.v
theories/Model/Sparql.v
theories/Model/SparqlJob.v
theories/Model/Terms.v
theories/Model/Threads.v
theories/Model/Tuples.v
theories/Model/Turtle.v
theories/Model/TurtleNamed.v
theories/Model/TurtleOut.v
theories/Model/TurtleParse.v
theories/Model/TurtleTree.v
theories/Model/UrlJoin.v
theories/Proofs/BnfHtml.v
theories/Proofs/BnfLex.v
theories/Proofs/BnfParse.v
theories/Proofs/BnfRules.v
theories/Proofs/BnfSound.v
theories/Proofs/BnfTotal.v
theories/Proofs/ClassLemmas.v
theories/Proofs/CodecLemmas.v
theories/Proofs/CodecMore.v
theories/Proofs/CurieLemmas.v
theories/Proofs/CurieMore.v
theories/Proofs/DThreadInv.v
theories/Proofs/DThreadRun.v
theories/Proofs/DThreadSound.v
theories/Proofs/DThreadTop.v
theories/Proofs/DatasetFeed.v
theories/Proofs/DatasetGen.v
theories/Proofs/DatasetHist.v
theories/Proofs/DatasetInv.v
theories/Proofs/DatasetIter.v
theories/Proofs/DatasetLoop.v
theories/Proofs/DatasetReaders.v
theories/Proofs/DictLemmas.v
theories/Proofs/GraphFeed.v
theories/Proofs/GraphGen.v
theories/Proofs/GraphHist.v
theories/Proofs/GraphInv.v
theories/Proofs/GraphIter.v
theories/Proofs/GraphKeys.v
theories/Proofs/GraphLoop.v
theories/Proofs/GraphSound.v
theories/Proofs/IriLemmas.v
theories/Proofs/JsonLdLemmas.v
theories/Proofs/JsonLdRun.v
theories/Proofs/JsonLdThreads.v
theories/Proofs/LangLemmas.v
theories/Proofs/ListClass.v
theories/Proofs/MroLemmas.v
theories/Proofs/NTBoth.v
theories/Proofs/NTCallbacks.v
theories/Proofs/NTDoc.v
theories/Proofs/NTFile.v
theories/Proofs/NTFinal.v
theories/Proofs/NTGrammar.v
theories/Proofs/NTLex.v
theories/Proofs/NTMeans.v
theories/Proofs/NTMore.v
theories/Proofs/NTRun.v
theories/Proofs/NTStream.v
theories/Proofs/NTTurtle.v
theories/Proofs/ProfileLemmas.v
theories/Proofs/RdfChars.v
theories/Proofs/RdfLines.v
theories/Proofs/RdfShape.v
theories/Proofs/RdfXmlLemmas.v
theories/Proofs/ReprLemmas.v
theories/Proofs/ResourceAccept.v
theories/Proofs/ResourceLemmas.v
theories/Proofs/ResourceMore.v
theories/Proofs/ResourceRead.v
theories/Proofs/ResourceSelect.v
theories/Proofs/ResourceSet.v
theories/Proofs/ResourceValLemmas.v
theories/Proofs/ResourceWrite.v
theories/Proofs/ScanInv.v
theories/Proofs/SkosLemmas.v
theories/Proofs/SparqlJob.v
theories/Proofs/SparqlLemmas.v
theories/Proofs/ThreadHeap.v
theories/Proofs/ThreadInv.v
theories/Proofs/ThreadLemmas.v
theories/Proofs/ThreadMain.v
theories/Proofs/ThreadReaders.v
theories/Proofs/ThreadRun.v
theories/Proofs/ThreadScan.v
theories/Proofs/ThreadTop.v
theories/Proofs/ThreadView.v
theories/Proofs/TuplesLemmas.v
theories/Proofs/TurtleAccept.v
theories/Proofs/TurtleDoc.v
theories/Proofs/TurtleEsc.v
theories/Proofs/TurtleLayout.v
theories/Proofs/TurtleLemmas.v
theories/Proofs/TurtleLocal.v
theories/Proofs/TurtleMore.v
theories/Proofs/TurtleNamedOut.v
theories/Proofs/TurtleNames.v
theories/Proofs/TurtleReject.v
theories/Proofs/TurtleRepr.v
theories/Proofs/TurtleRound.v
theories/Proofs/TurtleScan.v
theories/Proofs/TurtleScope.v
theories/Proofs/TurtleSem.v
theories/Proofs/TurtleStr.v
theories/Proofs/TurtleTok.v
theories/Proofs/TurtleTokens.v
theories/Proofs/TurtleTrip.v
theories/Proofs/TurtleWrite.v
theories/Proofs/UriAbs.v
theories/Proofs/UriDocs.v
theories/Proofs/UriDots.v
theories/Proofs/UriErr.v
theories/Proofs/UriJoin.v
theories/Proofs/UriLemmas.v
theories/Proofs/UriParse.v
theories/Proofs/UriTrip.v
theories/Proofs/Utf8.v
theories/Properties/BnfProps.v
theories/Properties/CodecProps.v
theories/Properties/CurieProps.v
theories/Properties/DFeedProps.v
theories/Properties/DIterProps.v
theories/Properties/DReaderProps.v
theories/Properties/DatasetProps.v
theories/Properties/DatasetThreadProps.v
theories/Properties/FeedProps.v
theories/Properties/GLoopProps.v
theories/Properties/GraphProps.v
theories/Properties/GraphThreadProps.v
theories/Properties/IterProps.v
theories/Properties/JsonLdProps.v
theories/Properties/JsonLdRunProps.v
theories/Properties/JsonLdThreadProps.v
theories/Properties/KeysProps.v
theories/Properties/LoopProps.v
theories/Properties/MroProps.v
theories/Properties/NTFileProps.v
theories/Properties/NTProps.v
theories/Properties/NTStreamProps.v
theories/Properties/NTTextProps.v
theories/Properties/RdfProps.v
theories/Properties/RdfXmlProps.v
theories/Properties/ReaderProps.v
theories/Properties/RepoTests.v
theories/Properties/ReprProps.v
theories/Properties/ResourceProps.v
theories/Properties/ResourceSelectProps.v
theories/Properties/ResourceValProps.v
theories/Properties/ScanProps.v
theories/Properties/SparqlJobProps.v
theories/Properties/SparqlProps.v
theories/Properties/TuplesProps.v
theories/Properties/TurtleLocalProps.v
theories/Properties/TurtleNamedProps.v
theories/Properties/TurtleOutProps.v
theories/Properties/TurtleProps.v
theories/Properties/TurtleTextProps.v
theories/Properties/TurtleTripProps.v
theories/Properties/UriErrProps.v
theories/Properties/UriProps.v
theories/Properties/W3CTurtle.v
theories/Spec/BnfSpec.v
theories/Spec/CodecSpec.v
theories/Spec/CurieSpec.v
theories/Spec/DFeedSpec.v
theories/Spec/DIterSpec.v
theories/Spec/DReaderSpec.v
theories/Spec/DatasetSpec.v
theories/Spec/FeedSpec.v
theories/Spec/GLoopSpec.v
theories/Spec/GraphSpec.v
theories/Spec/IterSpec.v
theories/Spec/JsonLdRunSpec.v
theories/Spec/JsonLdSpec.v
theories/Spec/JsonLdThreadSpec.v
theories/Spec/KeysSpec.v
theories/Spec/LoopSpec.v
theories/Spec/MroSpec.v
theories/Spec/NTSpec.v
theories/Spec/NTStreamSpec.v
theories/Spec/NTTextSpec.v
theories/Spec/ProfileSpec.v
theories/Spec/RdfSpec.v
theories/Spec/RdfXmlSpec.v
theories/Spec/ReaderSpec.v
theories/Spec/ReprSpec.v
theories/Spec/ResourceSpec.v
theories/Spec/ResourceValSpec.v
theories/Spec/ScanSpec.v
theories/Spec/SparqlJobSpec.v
theories/Spec/SparqlSpec.v
theories/Spec/ThreadDatasetSpec.v
theories/Spec/ThreadGraphSpec.v
theories/Spec/ThreadSpec.v
theories/Spec/TuplesSpec.v
theories/Spec/TurtleNameSpec.v
theories/Spec/TurtleOutSpec.v
theories/Spec/TurtleRunSpec.v
theories/Spec/TurtleSpec.v
theories/Spec/TurtleTextSpec.v
theories/Spec/UriSpec.v
theories/Spec/UriTripSpec.v
