-Q theories Verif
theories/M_Args.v
theories/M_Conc.v
theories/M_Doctype.v
theories/M_Dom.v
theories/M_Entities.v
theories/M_Errors.v
theories/M_Exec.v
theories/M_Html5.v
theories/M_I18n.v
theories/M_IR.v
theories/M_Integration.v
theories/M_Iter.v
theories/M_Lnotab.v
theories/M_Loader.v
theories/M_NameGen.v
theories/M_Process.v
theories/M_Run.v
theories/M_Same.v
theories/M_Template.v
theories/M_Text.v
theories/M_TextRun.v
theories/M_Threads.v
theories/M_Values.v
theories/M_XCompile.v
theories/M_XRun.v
theories/M_XText.v
theories/P_After.v
theories/P_After2.v
theories/P_After3.v
theories/P_After4.v
theories/P_Again.v
theories/P_Again2.v
theories/P_Args.v
theories/P_Blind.v
theories/P_Blocks.v
theories/P_Blocks2.v
theories/P_Conc1.v
theories/P_Conc2.v
theories/P_Conc3.v
theories/P_Conc4.v
theories/P_Conc5.v
theories/P_Deep.v
theories/P_Doctype.v
theories/P_Dom.v
theories/P_Dom2.v
theories/P_DomLines.v
theories/P_Entities.v
theories/P_Entities2.v
theories/P_Errors.v
theories/P_Exec.v
theories/P_Exec2.v
theories/P_Exec3.v
theories/P_Exec4.v
theories/P_Exec5.v
theories/P_Fails.v
theories/P_Flow.v
theories/P_Flow2.v
theories/P_Flow3.v
theories/P_Flow4.v
theories/P_I18n.v
theories/P_I18n2.v
theories/P_I18n3.v
theories/P_I18n4.v
theories/P_I18nRun.v
theories/P_I18nText.v
theories/P_IR.v
theories/P_IR2.v
theories/P_IR3.v
theories/P_IR4.v
theories/P_IR5.v
theories/P_Integration.v
theories/P_Iter.v
theories/P_Lines1.v
theories/P_Lines2.v
theories/P_Lines3.v
theories/P_Lines4.v
theories/P_Lnotab.v
theories/P_Loader.v
theories/P_Loader2.v
theories/P_Markup.v
theories/P_Modes.v
theories/P_NameGen.v
theories/P_NestRun.v
theories/P_NestRun2.v
theories/P_NestRun3.v
theories/P_NestRun4.v
theories/P_NestRun5.v
theories/P_Nested.v
theories/P_Nested2.v
theories/P_Process.v
theories/P_Raw.v
theories/P_Refused.v
theories/P_Run1.v
theories/P_Run10.v
theories/P_Run11.v
theories/P_Run12.v
theories/P_Run2.v
theories/P_Run3.v
theories/P_Run4.v
theories/P_Run5.v
theories/P_Run6.v
theories/P_Run7.v
theories/P_Run8.v
theories/P_Run9.v
theories/P_Same.v
theories/P_Scope.v
theories/P_Shift.v
theories/P_Shift2.v
theories/P_Show.v
theories/P_Static.v
theories/P_Steady.v
theories/P_Template.v
theories/P_Template2.v
theories/P_Template3.v
theories/P_Template4.v
theories/P_Text.v
theories/P_Text2.v
theories/P_Text3.v
theories/P_Text4.v
theories/P_Text5.v
theories/P_Text6.v
theories/P_Text7.v
theories/P_Text8.v
theories/P_Text9.v
theories/P_TextLines.v
theories/P_TextPlace.v
theories/P_TextRun.v
theories/P_TextRun2.v
theories/P_Threads.v
theories/P_Threads2.v
theories/P_Threads3.v
theories/P_Threads4.v
theories/P_Twice.v
theories/P_Unnamed.v
theories/P_Values.v
theories/P_Verbatim.v
theories/P_XDoc.v
theories/P_XDoc2.v
theories/P_XFun.v
theories/P_XFun2.v
theories/P_XPlace.v
theories/P_XPlace2.v
theories/P_XRun1.v
theories/P_XRun2.v
theories/P_XRun3.v
theories/P_XRun4.v
theories/P_XRun5.v
theories/P_XStrip.v
theories/P_XText.v
theories/P_XText2.v
theories/Props_After.v
theories/Props_Again.v
theories/Props_Args.v
theories/Props_Blind.v
theories/Props_Blocks.v
theories/Props_Conc.v
theories/Props_Doctype.v
theories/Props_Dom.v
theories/Props_DomLines.v
theories/Props_Entities.v
theories/Props_Errors.v
theories/Props_Exec.v
theories/Props_Flow.v
theories/Props_I18n.v
theories/Props_I18nRun.v
theories/Props_IR.v
theories/Props_Integration.v
theories/Props_Lines.v
theories/Props_Lnotab.v
theories/Props_Loader.v
theories/Props_Markup.v
theories/Props_Modes.v
theories/Props_NameGen.v
theories/Props_NestRun.v
theories/Props_Process.v
theories/Props_PyStr.v
theories/Props_Run.v
theories/Props_Same.v
theories/Props_Scope.v
theories/Props_Script.v
theories/Props_Script2.v
theories/Props_Template.v
theories/Props_Text.v
theories/Props_TextLines.v
theories/Props_TextRun.v
theories/Props_Threads.v
theories/Props_Unnamed.v
theories/Props_Values.v
theories/Props_Verbatim.v
theories/Props_XDoc.v
theories/Props_XPlace.v
theories/Props_XRun.v
theories/Props_XText.v
theories/PyStr.v
theories/PyStrLemmas.v
theories/Regex.v
theories/RegexLemmas.v
theories/S_After.v
theories/S_Again.v
theories/S_Args.v
theories/S_Blind.v
theories/S_Blocks.v
theories/S_Blocks2.v
theories/S_Conc.v
theories/S_Doctype.v
theories/S_Dom.v
theories/S_DomLines.v
theories/S_Entities.v
theories/S_Errors.v
theories/S_Exec.v
theories/S_Fails.v
theories/S_Flow.v
theories/S_I18n.v
theories/S_I18nRun.v
theories/S_IR.v
theories/S_Integration.v
theories/S_Iter.v
theories/S_Lines.v
theories/S_Lnotab.v
theories/S_Loader.v
theories/S_Markup.v
theories/S_Modes.v
theories/S_NestRun.v
theories/S_Nested.v
theories/S_Process.v
theories/S_PyStr.v
theories/S_Run.v
theories/S_Same.v
theories/S_Scope.v
theories/S_Show.v
theories/S_Static.v
theories/S_Template.v
theories/S_Text.v
theories/S_TextLines.v
theories/S_TextRun.v
theories/S_TextTree.v
theories/S_Threads.v
theories/S_Unnamed.v
theories/S_Values.v
theories/S_Verbatim.v
theories/S_XDoc.v
theories/S_XFun.v
theories/S_XPlace.v
theories/S_XRun.v
theories/S_XText.v
