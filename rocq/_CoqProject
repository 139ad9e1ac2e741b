-Q theories Verif
theories/Base.v
theories/Lexer.v
theories/Ops.v
theories/Parser.v
theories/Ast.v
theories/ToYamd.v
theories/Api.v
theories/Tests.v
theories/LexSpec.v
theories/LexProofs.v
theories/LexFacts.v
theories/PropLexer.v
theories/FParser.v
theories/Refine.v
theories/Refine2.v
theories/Refine3.v
theories/Wf.v
theories/TokFacts.v
theories/StreamSpec.v
theories/StreamProofs.v
theories/StreamProofs2.v
theories/Lines.v
theories/StreamProofs3.v
theories/LineProofs.v
theories/MissSpec.v
theories/MissProofs.v
theories/PropParser.v
theories/PropLines.v
theories/Borders.v
theories/BorderSpec.v
theories/BorderProofs.v
theories/Collapse.v
theories/PropBorders.v
theories/PropCollapse.v
theories/Strict.v
theories/TreeAst.v
theories/AstSpec.v
theories/AstProofs.v
theories/HandBuilt.v
theories/PropAst.v
theories/Meaning.v
theories/MeaningProofs.v
theories/PropMeaning.v
theories/Tame.v
theories/Runs.v
theories/Settled.v
theories/RawLex.v
theories/RawTree.v
theories/RawLinks.v
theories/RawAst.v
theories/Units.v
theories/ULex.v
theories/Stops.v
theories/LinkUnits.v
theories/Inline.v
theories/AstUnits.v
theories/Calm.v
theories/Blocks.v
theories/Docs.v
theories/Highlight.v
theories/Lists.v
theories/UBlocks.v
theories/UList.v
theories/Mild.v
theories/UDocs.v
theories/TameDec.v
theories/SettledDec.v
theories/Plain.v
theories/PropRoundTrip.v
theories/PropRaw.v
theories/ShapeSpec.v
theories/Shapes.v
theories/Swap.v
theories/SwapAst.v
theories/WinSpec.v
theories/Win.v
theories/PropShapes.v
theories/Utf8Spec.v
theories/Utf8.v
theories/PropUtf8.v
theories/EscapeSpec.v
theories/Escapes.v
theories/PropEscape.v
theories/GenSpec.v
theories/Gen.v
theories/PropGen.v
theories/PropRefuted.v
theories/PropDocs.v
theories/LocalSpec.v
theories/Local.v
theories/PropLocal.v
theories/Content.v
theories/Tests2.v
theories/PropContent.v
theories/Machine.v
theories/MachineProofs.v
theories/PropMachine.v
theories/TextSpec.v
theories/Texts.v
theories/TextDisplay.v
theories/PropText.v
theories/Steps.v
theories/StepsProofs.v
theories/StepsBound.v
theories/StepsFinal.v
theories/StepsLow.v
theories/PropSteps.v
theories/Kin.v
theories/MemorySpec.v
theories/Memory.v
theories/PropMemory.v
theories/HeightSpec.v
theories/Height.v
theories/HeightLow.v
theories/StepsQuartic.v
theories/StepsBraces.v
theories/PropHeight.v
theories/Spaced.v
theories/Grow.v
theories/GrowTree.v
theories/GrowFinal.v
theories/PropGrow.v
theories/SizeSpec.v
theories/Size.v
theories/SizeLow.v
theories/PropSize.v
theories/Utils.v
theories/UtilSpec.v
theories/UtilProofs.v
theories/PropUtils.v
theories/Serde.v
theories/SerdeSpec.v
theories/SerdeProofs.v
theories/PropSerde.v
theories/Unsettled.v
theories/UnsettledHl.v
theories/UnsettledDoc.v
theories/Span.v
theories/Written.v
theories/BackInline.v
theories/BackPar.v
theories/BackHead.v
theories/BackFlat.v
theories/BackBody.v
theories/BackColl.v
theories/BackHl.v
theories/BackList.v
theories/BackShown.v
theories/BackDoc.v
theories/BackIff.v
theories/PropBack.v
theories/RoundsSpec.v
theories/Rounds.v
theories/PropRounds.v
theories/LexCount.v
theories/LexCountProofs.v
theories/PropLexCount.v
theories/NormalSpec.v
theories/ImageInline.v
theories/ImageLists.v
theories/ImageHighlight.v
theories/ImageDocs.v
theories/ImageNormal.v
theories/PropImage.v
theories/TokenSpec.v
theories/Tokens.v
theories/PropTokens.v
theories/ParserMachine.v
theories/ParserMachineProofs.v
theories/CounterOverflow.v
theories/PropParserMachine.v
theories/NestSpec.v
theories/Nest.v
theories/NestLow.v
theories/NestHeight.v
theories/PropNest.v
theories/BlankSpec.v
theories/Blank.v
theories/BlankDisplay.v
theories/Vanish.v
theories/PropBlank.v
