-Q theories Verif
theories/Base.v
theories/Ast.v
theories/Pom.v
theories/Parse.v
theories/Structs.v
theories/Definitions.v
theories/Value.v
theories/Variables.v
theories/Semantics.v
theories/Fs.v
theories/Eval.v
theories/Runtime.v
theories/Input.v
theories/Main.v
theories/Lib.v
theories/Demo.v
theories/Spec_Arith.v
theories/Proof_Arith.v
theories/Properties_Arith.v
theories/Spec_Vars.v
theories/Proof_Vars.v
theories/Properties_Vars.v
theories/Spec_Run.v
theories/Proof_Run.v
theories/Properties_Run.v
theories/Spec_Session.v
theories/Proof_Session.v
theories/Spec_Grammar.v
theories/Proof_Pom.v
theories/Proof_Parse.v
theories/Proof_Complete.v
theories/Proof_Complete2.v
theories/Properties_Session.v
theories/Properties_Parse.v
theories/Spec_Decode.v
theories/Proof_Decode.v
theories/Proof_Decode2.v
theories/Properties_Decode.v
theories/Spec_Search.v
theories/Proof_Search.v
theories/Proof_Search2.v
theories/Demo_Search.v
theories/Properties_Search.v
theories/Spec_Hist.v
theories/Proof_Hist.v
theories/Proof_Text.v
theories/Properties_Hist.v
theories/Spec_Fs.v
theories/Proof_Fs.v
theories/Properties_Fs.v
theories/Spec_Safe.v
theories/Proof_Safe.v
theories/Properties_Safe.v
theories/Spec_Text.v
theories/Proof_Display.v
theories/Proof_HistSim.v
theories/Properties_Text.v
theories/Spec_Input.v
theories/Proof_Input.v
theories/Properties_Input.v
theories/Spec_Driver.v
theories/Proof_Driver.v
theories/Properties_Driver.v
theories/Spec_Constants.v
theories/Proof_Constants.v
theories/Properties_Constants.v
theories/Proof_Complete3.v
theories/Spec_Render.v
theories/Proof_Render.v
theories/Proof_Syntax.v
theories/Properties_Syntax.v
theories/Spec_Layout.v
theories/Proof_Layout.v
theories/Proof_Tails.v
theories/Properties_Layout.v
theories/Spec_Lang.v
theories/Proof_Lang.v
theories/Properties_Lang.v
theories/Spec_Exec.v
theories/Proof_Exec.v
theories/Properties_Exec.v
theories/Spec_Access.v
theories/Proof_Access.v
theories/Properties_Access.v
theories/Spec_Utf8.v
theories/Proof_Utf8.v
theories/Properties_Utf8.v
theories/Proof_Split.v
theories/Properties_Split.v
theories/Spec_Echo.v
theories/Proof_Echo.v
theories/Properties_Echo.v
theories/Proof_Lossless.v
theories/Properties_Lossless.v
theories/Spec_Output.v
theories/Proof_Output.v
theories/Properties_Output.v
theories/Spec_Frame.v
theories/Proof_Frame.v
theories/Proof_Frame2.v
theories/Properties_Frame.v
theories/Spec_Ends.v
theories/Proof_Ends.v
theories/Properties_Ends.v
theories/Spec_Still.v
theories/Proof_Still.v
theories/Properties_Still.v
theories/Spec_Scripts.v
theories/Proof_Scripts.v
theories/Proof_Scripts2.v
theories/Proof_Scripts3.v
theories/Proof_Scripts4.v
theories/Proof_Scripts5.v
theories/Proof_Scripts6.v
theories/Proof_Scripts7.v
theories/Properties_Scripts.v
theories/Conformance.v
theories/Process.v
theories/Spec_Process.v
theories/Proof_Sim.v
theories/Proof_Process.v
theories/Properties_Process.v
theories/Spec_Causal.v
theories/Proof_Causal.v
theories/Properties_Causal.v
theories/Spec_Failures.v
theories/Proof_Failures.v
theories/Properties_Failures.v
theories/Spec_Laws.v
theories/Proof_Laws.v
theories/Properties_Laws.v
theories/Proof_Segments.v
theories/Spec_Warn.v
theories/Proof_Warn.v
theories/Properties_Warn.v
theories/Spec_Cost.v
theories/Proof_Cost.v
theories/Properties_Cost.v
theories/Errors.v
theories/Spec_Errors.v
theories/Proof_Errors.v
theories/Proof_Errors2.v
theories/Properties_Errors.v
theories/Spec_Analysis.v
theories/Proof_Analysis.v
theories/Proof_Analysis2.v
theories/Properties_Analysis.v
theories/Memory.v
theories/Spec_Memory.v
theories/Proof_Memory.v
theories/Properties_Memory.v
theories/Proof_Nv.v
theories/Spec_Rename.v
theories/Proof_Rename.v
theories/Properties_Rename.v
theories/Spec_Looks.v
theories/Proof_Looks.v
theories/Properties_Looks.v
theories/PomSteps.v
theories/ParseSteps.v
theories/Proof_Steps.v
theories/Proof_StepsExpr.v
theories/Proof_StepsOps.v
theories/Proof_StepsElse.v
theories/Proof_StepsStmt.v
theories/Proof_StepsAll.v
theories/Properties_Steps.v
theories/Spec_Items.v
theories/Proof_Items.v
theories/Proof_Items2.v
theories/Properties_Items.v
theories/Spec_Lines.v
theories/Proof_Lines.v
theories/Properties_Lines.v
theories/Spec_Paging.v
theories/Proof_Paging.v
theories/Properties_Paging.v
theories/Spec_Blocks.v
theories/Proof_Blocks.v
theories/Proof_Blocks2.v
theories/Proof_Blocks3.v
theories/Properties_Blocks.v
theories/Spec_Depth.v
theories/Proof_Depth.v
theories/Properties_Depth.v
theories/Spec_Logic.v
theories/Proof_Logic.v
theories/Properties_Logic.v
theories/Ioctl.v
theories/Spec_Ioctl.v
theories/Proof_Ioctl.v
theories/Properties_Ioctl.v
theories/Spec_Build.v
theories/Proof_Build.v
theories/Properties_Build.v
