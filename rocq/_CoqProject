-Q theories Verif
theories/M_Str.v
theories/M_Ids.v
theories/L_Str.v
theories/L_Ids.v
theories/P_Ids.v
theories/M_Float.v
theories/M_Time.v
theories/M_Value.v
theories/M_Graph.v
theories/S_Graph.v
theories/L_Graph.v
theories/P_Graph.v
theories/M_Num.v
theories/M_Query.v
theories/S_Sort.v
theories/L_Sort.v
theories/S_Query.v
theories/L_Filter.v
theories/L_Order.v
theories/L_Related.v
theories/L_Exec.v
theories/L_Agg.v
theories/L_Median.v
theories/S_Date.v
theories/L_Num.v
theories/L_Date.v
theories/L_Order2.v
theories/P_Query.v
theories/P_Agg.v
theories/M_QParse.v
theories/S_QText.v
theories/L_FloatInt.v
theories/S_Round.v
theories/S_Nearest.v
theories/L_Round.v
theories/L_FloatSub.v
theories/L_Near.v
theories/L_Nearest.v
theories/S_Amount.v
theories/L_Amount.v
theories/L_Amount2.v
theories/P_Amount.v
theories/S_Crash.v
theories/L_Crash.v
theories/L_Crash2.v
theories/L_Crash3.v
theories/P_Crash.v
theories/L_QParse.v
theories/P_QParse.v
theories/M_Text.v
theories/M_Dsl.v
theories/S_Dsl.v
theories/L_Text.v
theories/L_DslStr.v
theories/L_Ratio.v
theories/L_DslVal.v
theories/L_Zone.v
theories/P_Dsl.v
theories/M_Schema.v
theories/M_Workspace.v
theories/S_Schema.v
theories/L_Schema.v
theories/L_Schema2.v
theories/L_Workspace.v
theories/P_Schema.v
theories/P_Workspace.v
theories/M_Fs.v
theories/M_Server.v
theories/S_Fs.v
theories/S_Server.v
theories/L_Fs.v
theories/L_Server.v
theories/L_Load.v
theories/L_History.v
theories/P_Server.v
theories/M_Tools.v
theories/S_Tools.v
theories/L_Replace.v
theories/L_Tools.v
theories/P_Tools.v
theories/M_Add.v
theories/S_Add.v
theories/L_Words.v
theories/L_Add.v
theories/P_Add.v
theories/M_Save.v
theories/S_Save.v
theories/L_Save.v
theories/P_Save.v
theories/M_Cli.v
theories/S_Cli.v
theories/L_Cli.v
theories/P_Cli.v
theories/M_Conc.v
theories/M_Prompt.v
theories/S_Grow.v
theories/S_Prompt.v
theories/L_Prompt.v
theories/L_Grow.v
theories/L_Prompt2.v
theories/P_Grow.v
theories/S_Conc.v
theories/L_Conc.v
theories/P_Conc.v
theories/P_Prompt.v
theories/M_Init.v
theories/S_Init.v
theories/L_Init.v
theories/L_Init2.v
theories/P_Init.v
theories/M_Json.v
theories/M_GraphJson.v
theories/S_Json.v
theories/L_Json.v
theories/L_Json2.v
theories/L_Json3.v
theories/L_JsonFloat.v
theories/L_GraphJson.v
theories/L_GraphJson2.v
theories/S_JsonText.v
theories/L_JsonText.v
theories/P_Json.v
theories/M_Syntax.v
theories/S_Syntax.v
theories/L_Syntax.v
theories/L_Syntax2.v
theories/L_Syntax3.v
theories/L_Syntax4.v
theories/L_Syntax5.v
theories/P_Syntax.v
theories/S_Life.v
theories/L_Life.v
theories/P_Life.v
theories/M_Show.v
theories/S_Show.v
theories/L_Show.v
theories/L_ShowText.v
theories/M_Output.v
theories/S_Output.v
theories/L_Output.v
theories/P_Show.v
theories/M_Tree.v
theories/S_Tree.v
theories/L_Tree.v
theories/L_Broken.v
theories/P_Tree.v
theories/S_Whole.v
theories/L_Whole.v
theories/L_Whole2.v
theories/L_Whole3.v
theories/P_Whole.v
theories/M_Kill.v
theories/S_Kill.v
theories/L_Kill.v
theories/P_Kill.v
theories/M_Suggest.v
theories/S_Suggest.v
theories/L_Suggest.v
theories/P_Suggest.v
theories/S_Alike.v
theories/S_Literal.v
theories/L_Literal.v
theories/P_Literal.v
theories/P_Alike.v
theories/L_Alike.v
theories/S_Accept.v
theories/L_Accept.v
theories/P_Accept.v
theories/S_Laws.v
theories/L_Laws.v
theories/P_Laws.v
theories/S_More.v
theories/L_More.v
theories/P_More.v
theories/M_Setup.v
theories/S_Setup.v
theories/L_Setup.v
theories/P_Setup.v
theories/S_Spread.v
theories/L_Spread.v
theories/P_Spread.v
theories/S_Loosen.v
theories/L_Loosen.v
theories/P_Loosen.v
theories/S_Agree.v
theories/L_Agree.v
theories/P_Agree.v
theories/S_Undo.v
theories/L_Undo.v
theories/P_Undo.v
theories/M_Answer.v
theories/S_Answer.v
theories/L_Answer.v
theories/P_Answer.v
theories/M_Blame.v
theories/S_Blame.v
theories/L_Blame.v
theories/P_Blame.v
theories/M_QFail.v
theories/S_QFail.v
theories/L_QFail.v
theories/P_QFail.v
theories/S_Swap.v
theories/L_Swap.v
theories/P_Swap.v
theories/S_Rename.v
theories/L_Rename.v
theories/P_Rename.v
theories/S_Part.v
theories/L_Part.v
theories/P_Part.v
theories/M_Progress.v
theories/S_Progress.v
theories/L_Progress.v
theories/P_Progress.v
theories/S_Through.v
theories/P_Through.v
theories/M_Fold.v
theories/S_Fold.v
theories/L_Fold.v
theories/P_Fold.v
theories/S_First.v
theories/L_First.v
theories/P_First.v
theories/S_Naming.v
theories/P_Naming.v
theories/S_Listing.v
theories/L_Listing.v
theories/P_Listing.v
theories/P_Reading.v
theories/S_Found.v
theories/L_Found.v
theories/P_Found.v
theories/S_Builtin.v
theories/P_Builtin.v
theories/S_Links.v
theories/P_Links.v
theories/P_Sums.v
theories/S_Calendar.v
theories/P_Calendar.v
