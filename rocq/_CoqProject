-Q theories Verif
theories/Base.v
theories/BaseFacts.v
theories/Scalar.v
theories/ScalarFacts.v
theories/SpecWire.v
theories/WireFacts.v
theories/Utf8.v
theories/Utf8Facts.v
theories/Reader.v
theories/Client.v
theories/ReaderFacts.v
theories/SpecReader.v
theories/SpecFollow.v
theories/ReaderProofs.v
theories/ReaderProofs2.v
theories/ReaderProofs3.v
theories/ReaderProofs4.v
theories/ReaderProofs5.v
theories/ReaderProofs6.v
theories/ReaderProofs7.v
theories/ReaderProofs8.v
theories/PropsReader.v
theories/PropsFollow.v
theories/Builder.v
theories/Ops.v
theories/Abstract.v
theories/Refine.v
theories/Refine2.v
theories/Build1.v
theories/Build2.v
theories/Build3.v
theories/SpecBuilder.v
theories/Build4.v
theories/Build5.v
theories/Build6.v
theories/Build7.v
theories/Build8.v
theories/Build9.v
theories/BuilderProofs1.v
theories/BuilderProofs2.v
theories/BuilderProofs3.v
theories/BuilderProofs4.v
theories/Build10.v
theories/BuilderProofs5.v
theories/BuilderProofs6.v
theories/BuilderProofs7.v
theories/BuilderProofs8.v
theories/Build11.v
theories/BuilderProofs9.v
theories/BuilderProofs10.v
theories/GrowthProofs.v
theories/PropsBuilder.v
theories/Schema.v
theories/Codegen.v
theories/SpecGen.v
theories/GenProofs1.v
theories/GenProofs2.v
theories/GenProofs3.v
theories/GenProofs4.v
theories/GenProofs5.v
theories/GenProofs6.v
theories/GenProofs7.v
theories/GenProofs8.v
theories/GenProofs9.v
theories/GenProofs10.v
theories/Ident.v
theories/SpecIdent.v
theories/IdentProofs.v
theories/Resolve.v
theories/SpecResolve.v
theories/SpecFormed.v
theories/ResolveProofs1.v
theories/ResolveProofs2.v
theories/ResolveProofs3.v
theories/ResolveProofs4.v
theories/ResolveProofs5.v
theories/ResolveProofs6.v
theories/ResolveProofs7.v
theories/ResolveProofs8.v
theories/ResolveProofs9.v
theories/ResolveProofs10.v
theories/ResolveProofs11.v
theories/ResolveProofs12.v
theories/ResolveProofs13.v
theories/AcceptProofs.v
theories/PropsAccept.v
theories/PropsResolve.v
theories/SpecParser.v
theories/SpecGrammar.v
theories/Parser.v
theories/ParserProofs.v
theories/ParserProofs2.v
theories/GrammarProofs.v
theories/GrammarProofs2.v
theories/GrammarProofs3.v
theories/WordProofs.v
theories/GrammarProofs4.v
theories/GrammarProofs5.v
theories/GrammarProofs6.v
theories/GrammarProofs7.v
theories/GrammarProofs8.v
theories/GrammarProofs9.v
theories/SoundProofs.v
theories/SoundProofs2.v
theories/ExactProofs.v
theories/SpecPrint.v
theories/PrintProofs.v
theories/Compile.v
theories/CompileProofs.v
theories/ParserProofs3.v
theories/PropsParser.v
theories/PropsCompile.v
theories/PropsAttr.v
theories/Heck.v
theories/HeckProofs.v
theories/SpecWords.v
theories/HeckProofs2.v
theories/PropsIdent.v
theories/SpecAccess.v
theories/AccessProofs.v
theories/PropsGen.v
theories/Emit.v
theories/SpecEmit.v
theories/EmitProofs1.v
theories/EmitProofs2.v
theories/EmitProofs3.v
theories/EmitProofs4.v
theories/EmitProofs5.v
theories/EmitProofs6.v
theories/EmitProofs7.v
theories/EmitProofs8.v
theories/EmitProofs9.v
theories/SpecPaths.v
theories/EmitProofs10.v
theories/EmitProofs11.v
theories/EmitCase.v
theories/SpecWrite.v
theories/EmitProofs12.v
theories/EmitProofs13.v
theories/EmitCase2.v
theories/PropsEmit.v
theories/SpecEvolve.v
theories/EvolveProofs1.v
theories/EvolveProofs2.v
theories/EvolveProofs3.v
theories/PropsEvolve.v
theories/SpecTable.v
theories/TableProofs1.v
theories/TableProofs2.v
theories/TableProofs3.v
theories/TableProofs4.v
theories/PropsTable.v
theories/Names.v
theories/SpecNames.v
theories/NameProofs.v
theories/NameProofs2.v
theories/NameProofs3.v
theories/PropsNames.v
theories/Files.v
theories/FilesProofs.v
theories/PropsFiles.v
theories/SpecDoc.v
theories/DocProofs1.v
theories/DocProofs2.v
theories/DocProofs3.v
theories/DocProofs4.v
theories/DocProofs5.v
theories/DocCase.v
theories/PropsDoc.v
theories/SpecGrow.v
theories/GrowProofs1.v
theories/GrowProofs2.v
theories/GrowProofs3.v
theories/GrowCase.v
theories/PropsGrow.v
theories/SpecSame.v
theories/DocProofs6.v
theories/DocProofs7.v
theories/DocProofs8.v
theories/DocProofs9.v
theories/SameCase.v
theories/PropsSame.v
theories/RepoTests.v
theories/RepoTests2.v
theories/SpecUse.v
theories/UseProofs.v
theories/UseProofs2.v
theories/UseProofs3.v
theories/UseProofs4.v
theories/PropsUse.v
theories/Raw.v
theories/RawBuilder.v
theories/SpecRaw.v
theories/RawProofs1.v
theories/RawProofs2.v
theories/RawProofs3.v
theories/RawProofs4.v
theories/RawProofs5.v
theories/RawProofs6.v
theories/RawProofs7.v
theories/PropsRaw.v
theories/RawGen.v
theories/SpecSeat.v
theories/RawProofs8.v
theories/RawProofs9.v
theories/RawProofs10.v
theories/PropsSeat.v
