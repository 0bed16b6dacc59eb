-Q theories Verif
theories/Str.v
theories/StrFacts.v
theories/PName.v
theories/PNameSpec.v
theories/PNameProofs.v
theories/PropsPName.v
theories/Url.v
theories/Iri.v
theories/IriSpec.v
theories/IriProofs.v
theories/PropsIri.v
theories/IriEditSpec.v
theories/IriEditProofs.v
theories/PropsIriEdit.v
theories/AMap.v
theories/AMapFacts.v
theories/PrefixMap.v
theories/PrefixMapSpec.v
theories/PrefixMapProofs.v
theories/PropsPrefixMap.v
theories/Literal.v
theories/LiteralSpec.v
theories/LiteralProofs.v
theories/Term.v
theories/TermProofs.v
theories/ReifySpec.v
theories/ReifyProofs.v
theories/Graph.v
theories/GraphSpec.v
theories/GraphProofs.v
theories/SimplifyProofs.v
theories/SkolemProofs.v
theories/GraphProps.v
theories/BinaryProofs.v
theories/PropsLiteral.v
theories/NativeSpec.v
theories/NativeProofs.v
theories/PropsNative.v
theories/Floats.v
theories/FloatsSpec.v
theories/FloatsProofs.v
theories/PropsFloats.v
theories/Errors.v
theories/ErrorsSpec.v
theories/ErrorsProofs.v
theories/PropsErrors.v
theories/PropsTerm.v
theories/PropsReify.v
theories/PropsGraph.v
theories/DataSet.v
theories/DataSetSpec.v
theories/DataSetProofs.v
theories/PropsDataSet.v
theories/Resource.v
theories/ResourceSpec.v
theories/ResourceProofs.v
theories/PropsResource.v
theories/Pest.v
theories/PestFacts.v
theories/NTriples.v
theories/NTriplesSpec.v
theories/NTriplesProofs.v
theories/NTriplesRead.v
theories/NTriplesDocs.v
theories/NTriplesWriteSpec.v
theories/NTriplesWrite.v
theories/NTriplesReject.v
theories/NTriplesMain.v
theories/NTriplesNestedSpec.v
theories/NTriplesNested.v
theories/PropsNTriples.v
theories/Indenter.v
theories/IndenterSpec.v
theories/IndenterProofs.v
theories/PropsIndenter.v
theories/Json.v
theories/JsonSpec.v
theories/JsonProofs.v
theories/JsonMain.v
theories/PropsJson.v
theories/Turtle.v
theories/TurtleSpec.v
theories/TurtleProofs.v
theories/TurtleRuns.v
theories/TurtleShape.v
theories/TurtleMain.v
theories/TurtleTop.v
theories/TurtleStable.v
theories/PropsTurtle.v
theories/TurtleLitSpec.v
theories/TurtleLitProofs.v
theories/PropsTurtleLit.v
theories/Xml.v
theories/XmlSpec.v
theories/XmlProofs.v
theories/XmlMain.v
theories/XmlStriped.v
theories/XmlRead.v
theories/XmlSafe.v
theories/XmlTrip.v
theories/XmlBack.v
theories/PropsXml.v
theories/XmlMoreSpec.v
theories/XmlMore.v
theories/PropsXmlMore.v
theories/TurtleReadSpec.v
theories/TurtleLex.v
theories/TurtleWalk.v
theories/TurtleParse.v
theories/TurtleRead.v
theories/TurtleReadNames.v
theories/PropsTurtleRead.v
theories/Dot.v
theories/DotSpec.v
theories/DotProofs.v
theories/DotMain.v
theories/PropsDot.v
theories/DotReadSpec.v
theories/DotReadProofs.v
theories/PropsDotRead.v
theories/PrefixMapText.v
theories/PropsPrefixText.v
theories/Names.v
theories/NamesSpec.v
theories/NamesProofs.v
theories/PropsNames.v
theories/Indexed.v
theories/IndexedSpec.v
theories/IndexedProofs.v
theories/PropsIndexed.v
theories/Cli.v
theories/CliSpec.v
theories/CliProofs.v
theories/CliMain.v
theories/CliMoreSpec.v
theories/CliMore.v
theories/PropsCli.v
theories/Ontology.v
theories/OntologySpec.v
theories/OntologyProofs.v
theories/PropsOntology.v
theories/Skos.v
theories/SkosSpec.v
theories/SkosProofs.v
theories/SkosMain.v
theories/SkosMore.v
theories/PropsSkos.v
theories/SkosMap.v
theories/SkosMapSpec.v
theories/SkosMapProofs.v
theories/PropsSkosMap.v
theories/NodeEq.v
theories/NodeEqProofs.v
theories/PropsNodeEq.v
theories/SkosDoc.v
theories/SkosDocSpec.v
theories/SkosDocProofs.v
theories/SkosDocMain.v
theories/SkosDocMore.v
theories/SkosDocWhole.v
theories/SkosDocFinal.v
theories/SkosDocEnds.v
theories/SkosDocLinks.v
theories/PropsSkosDoc.v
theories/Sparql.v
theories/SparqlSpec.v
theories/SparqlProofs.v
theories/SparqlNames.v
theories/PropsSparql.v
theories/Chrono.v
theories/ChronoSpec.v
theories/ChronoProofs.v
theories/PropsChrono.v
theories/CliBackSpec.v
theories/CliBack.v
theories/CliXml.v
theories/PropsCliBack.v
theories/Serde.v
theories/SerdeSpec.v
theories/SerdeProofs.v
theories/PropsSerde.v
theories/DisplaySpec.v
theories/DisplayProofs.v
theories/PropsDisplay.v
theories/Hash.v
theories/HashSpec.v
theories/HashProofs.v
theories/PropsHash.v
theories/Files.v
theories/FilesSpec.v
theories/FilesProofs.v
theories/FilesCut.v
theories/FilesMain.v
theories/PropsFiles.v
theories/DotFiles.v
theories/DotFilesProofs.v
theories/PropsDotFiles.v
theories/Options.v
theories/OptionsSpec.v
theories/OptionsProofs.v
theories/PropsOptions.v
theories/LayoutSpec.v
theories/LayoutProofs.v
theories/PropsLayout.v
theories/TurtleFiles.v
theories/TurtleFilesSpec.v
theories/TurtleCut.v
theories/TurtleCutMain.v
theories/PropsTurtleFiles.v
