-Q theories Verif
theories/Base.v
theories/Float.v
theories/Ext.v
theories/Utf8.v
theories/Strconv.v
theories/Values.v
theories/Buffer.v
theories/Builtins.v
theories/Eval.v
theories/Parser.v
theories/Json.v
theories/Writer.v
theories/Files.v
theories/Cli.v
theories/Tools.v
theories/Testing.v
theories/Docs.v
theories/RefExt.v
theories/Spec.v
theories/Proofs_Base.v
theories/Proofs_Loops.v
theories/Proofs_Exec.v
theories/Proofs_Utf8.v
theories/Proofs_Float.v
theories/Proofs_Ref.v
theories/Prop_Edit.v
theories/Prop_Lines.v
theories/Proofs_Effects.v
theories/Prop_Strings.v
theories/Prop_Regexp.v
theories/Prop_Calls.v
theories/Prop_Eval.v
theories/Proofs_Safe.v
theories/Prop_Safe.v
theories/Proofs_Number.v
theories/Proofs_Round.v
theories/SpecText.v
theories/SpecBytes.v
theories/Proofs_Token.v
theories/Proofs_Script.v
theories/Proofs_Lines.v
theories/Proofs_Reread.v
theories/Prop_Values.v
theories/Prop_Script.v
theories/Proofs_Json.v
theories/Proofs_JsonBack.v
theories/Prop_Json.v
theories/SpecFiles.v
theories/Proofs_Files.v
theories/Proofs_Cli.v
theories/Prop_Parse.v
theories/Prop_Files.v
theories/Flags.v
theories/SpecFlags.v
theories/Prop_Flags.v
theories/Prop_Readme.v
theories/Prop_Tools.v
theories/DocsData.v
theories/SpecDocs.v
theories/Prop_Docs.v
theories/Prop_DocText.v
theories/RefRegex.v
theories/TestCmd.v
theories/Serve.v
theories/SpecServe.v
theories/Concurrent.v
theories/Lists.v
theories/CmdLine.v
theories/SpecCmd.v
theories/SpecOption.v
theories/SpecWord.v
theories/SpecTest.v
theories/Prop_Test.v
theories/RepoTests.v
theories/UnitTests.v
theories/Proofs_Bytes.v
theories/Prop_Bytes.v
theories/Proofs_Chars.v
theories/Prop_Chars.v
theories/Prop_Marks.v
theories/SpecJson.v
theories/Proofs_Grammar.v
theories/Prop_Grammar.v
theories/SpecLines.v
theories/SpecRefuse.v
theories/Proofs_Words.v
theories/Prop_Words.v
theories/Prop_Serve.v
theories/Prop_Concurrent.v
theories/SpecNumber.v
theories/SpecNumText.v
theories/Prop_Replace.v
theories/Proofs_Nearest.v
theories/Proofs_Unique.v
theories/Proofs_Numeral.v
theories/Prop_Errors.v
theories/Proofs_Shortest.v
theories/Proofs_Shortest2.v
theories/Prop_Numbers.v
theories/Prop_NumText.v
theories/Prop_List.v
theories/Prop_CmdLine.v
theories/Prop_Option.v
theories/Prop_Report.v
theories/Proofs_Word.v
theories/Prop_NumWords.v
theories/Proofs_Refuse.v
theories/Prop_Refuse.v
theories/SpecEdit.v
theories/Proofs_Told.v
theories/Prop_Told.v
theories/SpecData.v
theories/SpecPage.v
theories/Proofs_Data.v
theories/Prop_Data.v
theories/Prop_Page.v
theories/SpecManual.v
theories/Proofs_Manual.v
theories/Proofs_Manual2.v
theories/Proofs_Manual3.v
theories/Proofs_Manual4.v
theories/Proofs_Manual5.v
theories/Proofs_Manual6.v
theories/Prop_Manual.v
theories/SpecMeaning.v
theories/Proofs_Meaning.v
theories/Proofs_Meaning2.v
theories/Prop_Meaning.v
theories/SpecWrite.v
theories/Proofs_Write.v
theories/Prop_Write.v
theories/SpecUsage.v
theories/Prop_Usage.v
theories/SpecTrial.v
theories/Proofs_Trial.v
theories/Prop_Trial.v
theories/SpecProgram.v
theories/Proofs_Program.v
theories/Prop_Program.v
theories/SpecService.v
theories/Prop_Service.v
theories/SpecGrowth.v
theories/Proofs_Growth.v
theories/Prop_Growth.v
theories/SpecEvery.v
theories/Proofs_Every.v
theories/Prop_Every.v
theories/SpecKinds.v
theories/Proofs_Kinds.v
theories/Prop_Kinds.v
theories/SpecSure.v
theories/Prop_Sure.v
theories/SpecRewrite.v
theories/Proofs_Rewrite.v
theories/Prop_Rewrite.v
theories/SpecJoin.v
theories/Proofs_Join.v
theories/Prop_Join.v
theories/SpecLibrary.v
theories/Proofs_Library.v
theories/Prop_Library.v
theories/Proofs_Order.v
theories/Prop_Order.v
