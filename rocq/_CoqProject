-Q theories Verif
theories/Base.v
theories/Expr.v
theories/Bits.v
theories/Instr.v
theories/SpecIsa.v
theories/SpecExpr.v
theories/BitsProofs.v
theories/CodecProofs.v
theories/CodecProofs2.v
theories/ExprProofs.v
theories/PropsCodec.v
theories/PropsExpr.v
theories/Ast.v
theories/Asm.v
theories/SpecAsm.v
theories/AsmProofs.v
theories/AsmProofs2.v
theories/AsmProofs3.v
theories/AsmProofs4.v
theories/AsmProofs5.v
theories/AsmProofs6.v
theories/AsmProofs7.v
theories/AsmProofs8.v
theories/PropsAsm.v
theories/Macro.v
theories/SpecMacro.v
theories/MacroProofs.v
theories/MacroProofs2.v
theories/MacroProofs3.v
theories/PropsMacro.v
theories/Lexer.v
theories/SpecLex.v
theories/LexProofs.v
theories/LexProofs2.v
theories/LexProofs3.v
theories/LexProofs4.v
theories/LexProofs5.v
theories/LexProofs6.v
theories/PropsLex.v
theories/Parser.v
theories/SpecParse.v
theories/ParseProofs.v
theories/PropsParse.v
theories/SpecLine.v
theories/LineProofs.v
theories/LineProofs2.v
theories/LineProofs3.v
theories/PropsLine.v
theories/Printer.v
theories/SpecPrint.v
theories/PrintProofs.v
theories/PrintProofs2.v
theories/PrintProofs3.v
theories/PrintProofs4.v
theories/PrintProofs5.v
theories/PropsPrint.v
theories/Report.v
theories/SpecReport.v
theories/ReportProofs.v
theories/PropsReport.v
theories/Vmi.v
theories/SpecVmi.v
theories/VmiProofs.v
theories/PropsVmi.v
theories/Files.v
theories/SpecFiles.v
theories/FilesProofs.v
theories/PropsFiles.v
theories/Img.v
theories/SpecImg.v
theories/GrayProofs.v
theories/ImgProofs.v
theories/ImgProofs2.v
theories/ImgProofs3.v
theories/ImgProofs4.v
theories/ImgProofs5.v
theories/PropsImg.v
theories/CHeader.v
theories/SpecHeader.v
theories/HeaderProofs.v
theories/HeaderProofs2.v
theories/PropsHeader.v
theories/Include.v
theories/SpecInclude.v
theories/IncludeProofs.v
theories/IncludeProofs2.v
theories/IncludeProofs3.v
theories/PropsInclude.v
theories/SpecCase.v
theories/CaseProofs.v
theories/PropsCase.v
theories/ExpandProofs.v
theories/SpecExpand.v
theories/ExpandProofs2.v
theories/PropsExpand.v
theories/Disasm.v
theories/SpecDisasm.v
theories/DisasmProofs.v
theories/DisasmProofs2.v
theories/DisasmProofs3.v
theories/DisasmProofs4.v
theories/PropsDisasm.v
theories/DisasmProofs5.v
theories/DisasmProofs6.v
theories/DisasmProofs7.v
theories/DisasmProofs8.v
theories/DisasmProofs9.v
theories/DisasmProofs10.v
theories/DisasmProofs11.v
theories/DisasmProofs12.v
theories/PropsRoundtrip.v
theories/PropsListing.v
theories/Order.v
theories/SpecOrder.v
theories/OrderProofs.v
theories/PropsOrder.v
theories/SpecPattern.v
theories/PatternProofs.v
theories/PatternProofs2.v
theories/PropsPattern.v
theories/Cmd.v
theories/SpecCmd.v
theories/CmdProofs.v
theories/CmdProofs2.v
theories/PropsCmd.v
theories/SpecCrash.v
theories/CrashProofs.v
theories/PropsCrash.v
theories/Span.v
theories/Message.v
theories/SpecSpan.v
theories/SpecMessage.v
theories/SpanProofs.v
theories/SpanProofs2.v
theories/SpanProofs3.v
theories/PropsSpan.v
theories/SpanParser.v
theories/SpanAsm.v
theories/SpanInclude.v
theories/SpecPlaces.v
theories/SpanParseProofs.v
theories/SpanAsmProofs.v
theories/SpanValid.v
theories/SpanValid2.v
theories/SpanValid3.v
theories/PropsPlaces.v
theories/SpecBlame.v
theories/BlameProofs.v
theories/BlameProofs2.v
theories/PropsBlame.v
theories/SpecData.v
theories/DataProofs.v
theories/PropsData.v
theories/SpecSyntax.v
theories/SyntaxProofs.v
theories/SyntaxProofs2.v
theories/SyntaxProofs3.v
theories/SyntaxProofs4.v
theories/SyntaxProofs5.v
theories/SyntaxProofs6.v
theories/SyntaxProofs7.v
theories/SyntaxProofs8.v
theories/SyntaxProofs9.v
theories/PropsSyntax.v
theories/SpecWritten.v
theories/WrittenProofs.v
theories/PropsWritten.v
theories/SpecReading.v
theories/ReadingProofs.v
theories/ReadingProofs2.v
theories/ReadingProofs3.v
theories/ReadingProofs4.v
theories/PropsReading.v
theories/SpecCalls.v
theories/CallProofs.v
theories/CallProofs2.v
theories/CallProofs3.v
theories/PropsCalls.v
theories/PropsFailure.v
theories/Unicode.v
theories/SpecUnicode.v
theories/UnicodeProofs.v
theories/UnicodeProofs2.v
theories/UnicodeProofs3.v
theories/UnicodeProofs4.v
theories/PropsUnicode.v
theories/Heading.v
theories/SpecHeading.v
theories/HeadingProofs.v
theories/HeadingProofs2.v
theories/PropsHeading.v
theories/Main.v
theories/SpecMain.v
theories/MainProofs.v
theories/PropsMain.v
theories/SpecNames.v
theories/PropsNames.v
theories/SpecLayout.v
theories/LayoutProofs.v
theories/PropsLayout.v
theories/SpecUtf8.v
theories/Utf8Proofs.v
theories/Utf8Proofs2.v
theories/PropsUtf8.v
