-Q theories Verif
theories/Base/Num.v
theories/Base/Result.v
theories/Model/Box.v
theories/Model/Dimen.v
theories/Model/DimenParser.v
theories/Model/EquationWindow.v
theories/Model/FontLoad.v
theories/Model/FontUsage.v
theories/Model/Glue.v
theories/Model/Layout.v
theories/Model/Lexer.v
theories/Model/LineBreaks.v
theories/Model/ListBuilders.v
theories/Model/Macro.v
theories/Model/MathFrontend.v
theories/Model/MathList.v
theories/Model/MathParser.v
theories/Model/MathTypeset.v
theories/Model/PageEditor.v
theories/Model/PageEngine.v
theories/Model/PageWindow.v
theories/Model/Preprocessor.v
theories/Model/Render.v
theories/Model/ShowLists.v
theories/Model/Tfm.v
theories/Model/Token.v
theories/Model/TokenUnion.v
theories/Model/TypesetAsks.v
theories/Model/Unicode.v
theories/Model/Viewer.v
theories/Proofs/BoxProofs.v
theories/Proofs/DimenProofs.v
theories/Proofs/EditorProofs.v
theories/Proofs/EquationJudge.v
theories/Proofs/EquationOk.v
theories/Proofs/EquationProofs.v
theories/Proofs/EquationWindowProofs.v
theories/Proofs/FontLoadPage.v
theories/Proofs/FontLoadProofs.v
theories/Proofs/FontUsageProofs.v
theories/Proofs/FormatProofs.v
theories/Proofs/FormulaProofs.v
theories/Proofs/GlueOnly.v
theories/Proofs/LayoutProofs.v
theories/Proofs/LexerProofs.v
theories/Proofs/LineBreakBound.v
theories/Proofs/LineBreakCreate.v
theories/Proofs/LineBreakMore.v
theories/Proofs/LineBreakOpt.v
theories/Proofs/LineBreakProofs.v
theories/Proofs/LineBreakQc.v
theories/Proofs/LineBreakSafe.v
theories/Proofs/ListBuilderProofs.v
theories/Proofs/MacroExpand.v
theories/Proofs/MacroMore.v
theories/Proofs/MacroOnly.v
theories/Proofs/MacroProofs.v
theories/Proofs/MacroSafe.v
theories/Proofs/MatchProofs.v
theories/Proofs/MathParserCareful.v
theories/Proofs/MathParserHeap.v
theories/Proofs/MathParserSafe.v
theories/Proofs/MathParserStore.v
theories/Proofs/MathParserStyles.v
theories/Proofs/MathProofs.v
theories/Proofs/PageCrash.v
theories/Proofs/PageCrashRun.v
theories/Proofs/PageDeliver.v
theories/Proofs/PageEnds.v
theories/Proofs/PageEscapes.v
theories/Proofs/PageFindings.v
theories/Proofs/PageFonts.v
theories/Proofs/PageFrame.v
theories/Proofs/PageMachine.v
theories/Proofs/PageMacro.v
theories/Proofs/PageMacroAny.v
theories/Proofs/PageMacroDoc.v
theories/Proofs/PageOther.v
theories/Proofs/PageQuiet.v
theories/Proofs/PageRich.v
theories/Proofs/PageRun.v
theories/Proofs/PageStream.v
theories/Proofs/PageText.v
theories/Proofs/PageWindow.v
theories/Proofs/ParagraphSpacing.v
theories/Proofs/ParserProofs.v
theories/Proofs/RenderInside.v
theories/Proofs/RenderPage.v
theories/Proofs/RenderProofs.v
theories/Proofs/RenderWindow.v
theories/Proofs/RichLinks.v
theories/Proofs/ShapeOnly.v
theories/Proofs/ShapeProofs.v
theories/Proofs/ShowListsProofs.v
theories/Proofs/SymbolProofs.v
theories/Proofs/TfmProofs.v
theories/Proofs/TokenProofs.v
theories/Proofs/TypesetAgain.v
theories/Proofs/TypesetAlone.v
theories/Proofs/TypesetAsksProofs.v
theories/Proofs/TypesetAsksWhy.v
theories/Proofs/TypesetAsksWindow.v
theories/Proofs/TypesetBoxes.v
theories/Proofs/TypesetCorollaries.v
theories/Proofs/TypesetEmit.v
theories/Proofs/TypesetFacts.v
theories/Proofs/TypesetFails.v
theories/Proofs/TypesetGeometry.v
theories/Proofs/TypesetMono.v
theories/Proofs/TypesetMore.v
theories/Proofs/TypesetNoThrow.v
theories/Proofs/TypesetOk.v
theories/Proofs/TypesetTotal.v
theories/Proofs/TypesetTypes.v
theories/Proofs/UnicodeProofs.v
theories/Proofs/UnitProofs.v
theories/Proofs/ViewerBlank.v
theories/Proofs/ViewerFields.v
theories/Proofs/ViewerMore.v
theories/Proofs/ViewerProofs.v
theories/Properties/BoxProps.v
theories/Properties/EditorProps.v
theories/Properties/EquationOkProps.v
theories/Properties/EquationProps.v
theories/Properties/FontLoadProps.v
theories/Properties/LexerProps.v
theories/Properties/LineBreakProps.v
theories/Properties/MacroProps.v
theories/Properties/MathProps.v
theories/Properties/PageCrashProps.v
theories/Properties/PageEditorProps.v
theories/Properties/PageEndsProps.v
theories/Properties/PageFontsProps.v
theories/Properties/PageMacroProps.v
theories/Properties/PageTextProps.v
theories/Properties/PageWindowProps.v
theories/Properties/ParserProps.v
theories/Properties/RenderProps.v
theories/Properties/RepoTests.v
theories/Properties/RichTextProps.v
theories/Properties/ShowListsProps.v
theories/Properties/SymbolProps.v
theories/Properties/TfmProps.v
theories/Properties/TokenProps.v
theories/Properties/TypesetAsksProps.v
theories/Properties/TypesetPartsProps.v
theories/Properties/TypesetProps.v
theories/Properties/UnicodeProps.v
theories/Properties/ViewerProps.v
theories/Spec/BoxSpec.v
theories/Spec/CrashSpec.v
theories/Spec/DimenSpec.v
theories/Spec/EditorSpec.v
theories/Spec/EquationOkSpec.v
theories/Spec/EquationSpec.v
theories/Spec/EquationWindowSpec.v
theories/Spec/EscapeSpec.v
theories/Spec/FontLoadSpec.v
theories/Spec/FontUsageSpec.v
theories/Spec/FormatSpec.v
theories/Spec/GeometrySpec.v
theories/Spec/LexerSpec.v
theories/Spec/LineBreakSpec.v
theories/Spec/MacroSpec.v
theories/Spec/MathSpec.v
theories/Spec/PageEditorSpec.v
theories/Spec/PageEndsSpec.v
theories/Spec/PageMacroSpec.v
theories/Spec/PageTextSpec.v
theories/Spec/PageWindowSpec.v
theories/Spec/RenderSpec.v
theories/Spec/RichTextSpec.v
theories/Spec/ShowListsSpec.v
theories/Spec/SymbolSpec.v
theories/Spec/TfmSpec.v
theories/Spec/TokenSpec.v
theories/Spec/TypesetAsksSpec.v
theories/Spec/TypesetOkSpec.v
theories/Spec/TypesetSpec.v
theories/Spec/UnicodeSpec.v
theories/Spec/ViewerSpec.v
