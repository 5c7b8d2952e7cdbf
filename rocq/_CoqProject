-Q theories Verif
theories/Base.v
theories/BaseProofs.v
theories/Csvp.v
theories/CsvpSpec.v
theories/CsvpProofs.v
theories/CsvpTotal.v
theories/CsvpLayout.v
theories/PropCsvp.v
theories/SourceCode.v
theories/SourceSpec.v
theories/SourceCodeProofs.v
theories/PropSource.v
theories/Ast.v
theories/AstProofs.v
theories/AstLexer.v
theories/AstParser.v
theories/FormulaSpec.v
theories/AstParserProofs.v
theories/AstLexerProofs.v
theories/FormulaProofs.v
theories/FormulaText.v
theories/FormulaInv.v
theories/CodeSectionSpec.v
theories/LexTiling.v
theories/CodeSectionProofs.v
theories/PropFormula.v
theories/PanicSpec.v
theories/PropPanic.v
theories/Eval.v
theories/EvalSpec.v
theories/EvalProofs.v
theories/EvalRounds.v
theories/EvalComplete.v
theories/EvalTotal.v
theories/ParsedPlain.v
theories/PropEval.v
theories/Options.v
theories/CellLexer.v
theories/CellParser.v
theories/CellSpec.v
theories/CellProofs.v
theories/CellProofs2.v
theories/CellProofs3.v
theories/CellProofs4.v
theories/CellProofs5.v
theories/CellProofs6.v
theories/CellProofs7.v
theories/CellProofs8.v
theories/CellLocal.v
theories/CellProofs9.v
theories/CellProofs10.v
theories/PropCell.v
theories/Sheet.v
theories/SheetSpec.v
theories/SheetProofs.v
theories/SheetProofs2.v
theories/SheetProofs3.v
theories/PropSheet.v
theories/PropVariables.v
theories/ModuleSpec.v
theories/ModuleProofs.v
theories/ModuleProofs2.v
theories/ModuleProofs3.v
theories/ReadTerminates.v
theories/Loader.v
theories/LoaderSpec.v
theories/LoaderProofs.v
theories/LoaderProofs2.v
theories/LoaderProofs3.v
theories/PropLoader.v
theories/PropCache.v
theories/PropRead.v
theories/Targets.v
theories/TargetSpec.v
theories/Files.v
theories/PropTarget.v
theories/PropFormat.v
theories/PropFiles.v
theories/CompileSpec.v
theories/PropCompile.v
theories/ModuleProofs4.v
theories/PropModules.v
theories/DateTime.v
theories/DateSpec.v
theories/DateProofs.v
theories/PropDate.v
theories/ReportSpec.v
theories/ReportProofs.v
theories/CellReport.v
theories/PropReport.v
theories/LexPlaces.v
theories/PropPlaces.v
theories/Cli.v
theories/PropCli.v
theories/Report.v
theories/PropDisplay.v
theories/PropLiterals.v
theories/PropOffers.v
theories/PropWanted.v
theories/HistorySpec.v
theories/HistoryProofs.v
theories/PropHistory.v
theories/ProgramSpec.v
theories/EvalAgree.v
theories/ProgramProofs.v
theories/PropProgram.v
theories/ImportSpec.v
theories/PropImports.v
theories/SameSpec.v
theories/SameProofs.v
theories/CsvShift.v
theories/CellAlike.v
theories/SameLoad.v
theories/PropSame.v
theories/CellFewer.v
theories/FinalNewline.v
theories/PropSplit.v
theories/EditSpec.v
theories/EditProofs.v
theories/EditProofs2.v
theories/EditLoad.v
theories/PropEdit.v
theories/PropKey.v
theories/RenameSpec.v
theories/RenameProofs.v
theories/PropRename.v
theories/ParamProofs.v
theories/ParamProofs2.v
theories/PropParams.v
theories/SpacingSpec.v
theories/SpacingProofs.v
theories/PropSpacing.v
theories/MainFile.v
theories/PropMainFile.v
theories/PropMainName.v
theories/InlineSpec.v
theories/InlineProofs.v
theories/InlineProofs2.v
theories/PropInline.v
theories/GrammarSpec.v
theories/GrammarProofs.v
theories/PropGrammar.v
theories/RestyleSpec.v
theories/RestyleProofs.v
theories/PropRestyle.v
theories/PropDisk.v
theories/Parallel.v
theories/PropParallel.v
theories/CrashSpec.v
theories/PropCrash.v
theories/FlagSpec.v
theories/PropFlags.v
theories/RunExists.v
theories/PropResult.v
theories/LibrarySpec.v
theories/PropLibrary.v
theories/PropLibrary2.v
theories/PropLibrary3.v
