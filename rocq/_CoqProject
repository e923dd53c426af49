-Q theories Verif
theories/Base.v
theories/Token.v
theories/Scanner.v
theories/Lexer.v
theories/Ast.v
theories/Parser.v
theories/Visitor.v
theories/Unordered.v
theories/Api.v
theories/Conformance.v
theories/Lexing.v
theories/ScanRefine.v
theories/Cursor.v
theories/Spec.v
theories/Direct.v
theories/Walk.v
theories/Refuted.v
theories/PropApi.v
theories/LexFacts.v
theories/LexSpec.v
theories/LexProofs.v
theories/ScanFacts.v
theories/LexerFacts.v
theories/ReadBuffer.v
theories/ScanProps.v
theories/Utf8.v
theories/ScanThms.v
theories/PropScan.v
theories/PropRefuted.v
theories/Pure.v
theories/Strict.v
theories/StrictSim.v
theories/Refine.v
theories/RefineRules.v
theories/RefineParser.v
theories/RefineFile.v
theories/FuelMono.v
theories/Diverge.v
theories/Closed.v
theories/Term.v
theories/Want.v
theories/GroupFree.v
theories/SettledCase.v
theories/Term2.v
theories/Total.v
theories/Inv.v
theories/Bound.v
theories/PropBound.v
theories/Explode.v
theories/PropTerm.v
theories/GroupSpec.v
theories/Tree.v
theories/AstMap.v
theories/SimSpec.v
theories/Simul.v
theories/SimCases.v
theories/SimCase.v
theories/Bom.v
theories/PropSim.v
theories/Grammar.v
theories/GramLex.v
theories/GramRules.v
theories/GramNames.v
theories/GramValues.v
theories/GramStmts.v
theories/GramParts.v
theories/GramBodies.v
theories/GramMsg.v
theories/GramFile.v
theories/GramCase.v
theories/GramPanic.v
theories/PropGram.v
theories/SndLex.v
theories/SndRules.v
theories/SndNames.v
theories/SndStmts.v
theories/SndParts.v
theories/SndDrop.v
theories/SndBodies.v
theories/Regular.v
theories/Junk.v
theories/SndFile.v
theories/SndCase.v
theories/PropSound.v
theories/Deep.v
theories/DeepText.v
theories/DeepForm.v
theories/DocCase.v
theories/PropTree.v
theories/Shape.v
theories/ShapeTree.v
theories/ShapeParse.v
theories/PropShape.v
theories/AttachSpec.v
theories/Attach.v
theories/AttachText.v
theories/AttachCase.v
theories/DeclSpec.v
theories/AttachDecl.v
theories/DeclCase.v
theories/PropAttach.v
theories/NameSpec.v
theories/Names.v
theories/PropNames.v
theories/KindSpec.v
theories/Kinds.v
theories/VisitSpec.v
theories/Visits.v
theories/PropKinds.v
theories/BareSpec.v
theories/Relay.v
theories/RelayFile.v
theories/PropRelay.v
theories/PartSpec.v
theories/Parts.v
theories/PartCase.v
theories/PropParts.v
theories/LexModes.v
theories/AgreeSpec.v
theories/Lock.v
theories/Agree.v
theories/LockPerm.v
theories/LockFile.v
theories/PermitFile.v
theories/PropPermit.v
theories/Calm.v
theories/FoundSpec.v
theories/Found.v
theories/Few.v
theories/ErrSize.v
theories/StrictFound.v
theories/PropFound.v
theories/PrintSpec.v
theories/Print.v
theories/PrintParts.v
theories/PrintStmts.v
theories/PrintFile.v
theories/PrintCase.v
theories/PropPrint.v
theories/SaidSpec.v
theories/Said.v
theories/SaidImport.v
theories/SaidCase.v
theories/SaidDeclSpec.v
theories/SaidDecl.v
theories/PropSaid.v
theories/NoPanic.v
theories/PropPanic.v
theories/ErrText.v
theories/ErrTextFacts.v
theories/ErrMade.v
theories/ErrTextCase.v
theories/PropText.v
theories/MethodSpec.v
theories/Methods.v
theories/MethodCase.v
theories/PropMethods.v
theories/ConcatSpec.v
theories/Down.v
theories/Concat.v
theories/PropConcat.v
theories/HeldSpec.v
theories/Held.v
theories/HeldCase.v
theories/PropHeld.v
theories/BulkSpec.v
theories/Bulk.v
theories/BulkCase.v
theories/PropBulk.v
theories/LookSpec.v
theories/Look.v
theories/PropLook.v
theories/BlankSpec.v
theories/BlankScan.v
theories/Blank.v
theories/BlankFile.v
theories/BlankCase.v
theories/PropBlank.v
theories/Slices.v
theories/SlicesProof.v
theories/SlicesCase.v
theories/PropSlices.v
