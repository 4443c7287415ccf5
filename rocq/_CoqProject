-Q theories Verif
theories/Base.v
theories/Model_Utils.v
theories/Model_Number.v
theories/Model_Types.v
theories/Model_Argument.v
theories/Model_Valid.v
theories/Model_Usage.v
theories/Model_Args.v
theories/Model_Api.v
theories/Tests.v
theories/Tests_Docs.v
theories/Spec_Order.v
theories/Spec_Names.v
theories/Proofs_Base.v
theories/Proofs_Order.v
theories/Proofs_Frame.v
theories/Proofs_Inv.v
theories/Spec_Reading.v
theories/Proofs_ReadFacts.v
theories/Proofs_Table.v
theories/Proofs_Reading.v
theories/Spec_Parse.v
theories/Proofs_Parse.v
theories/Spec_Decl.v
theories/Proofs_Decl.v
theories/Spec_Finish.v
theories/Proofs_Finish.v
theories/Proofs_Meth.v
theories/Spec_History.v
theories/Proofs_History.v
theories/Proofs_Config.v
theories/Spec_Api.v
theories/Proofs_Check.v
theories/Proofs_Names.v
theories/Proofs_Distinct.v
theories/Proofs_Stable.v
theories/Proofs_Ghost.v
theories/Proofs_Owner.v
theories/Spec_Result.v
theories/Proofs_Central.v
theories/Proofs_Dyn.v
theories/Properties_Names.v
theories/Properties_Life.v
theories/Properties_Words.v
theories/Demo.v
theories/Properties_Parse.v
theories/Proofs_Swap.v
theories/Properties_Spell.v
theories/Properties_Permute.v
theories/Properties_Flags.v
theories/Proofs_Redecl.v
theories/Properties_Decl.v
theories/Properties_Roles.v
theories/Proofs_Kind.v
theories/Proofs_Values.v
theories/Properties_Values.v
theories/Properties_Positional.v
theories/Proofs_Quiet.v
theories/Proofs_Fresh.v
theories/Properties_Defaults.v
theories/Properties_Exact.v
theories/Properties_Repeat.v
theories/Proofs_Alike.v
theories/Properties_Final.v
theories/Proofs_Defs.v
theories/Properties_Stored.v
theories/Properties_Failed.v
theories/Model_Memory.v
theories/Proofs_Memory.v
theories/Proofs_Memory2.v
theories/Proofs_Alive.v
theories/Properties_Memory.v
theories/Properties_Alive.v
theories/Properties_Again.v
theories/Proofs_Shape.v
theories/Properties_Views.v
theories/Spec_Number.v
theories/Proofs_Number.v
theories/Properties_Valid.v
theories/Model_Text.v
theories/Properties_Number.v
theories/Spec_Usage.v
theories/Proofs_Usage.v
theories/Properties_Usage.v
theories/Proofs_Safe.v
theories/Proofs_Term.v
theories/Properties_Safe.v
theories/Properties_Unsafe.v
theories/Properties_Required.v
theories/Properties_Offending.v
theories/Spec_Roundtrip.v
theories/Properties_Roundtrip.v
theories/Spec_Insert.v
theories/Proofs_Insert.v
theories/Properties_Insert.v
theories/Model_Double.v
theories/Spec_Double.v
theories/Proofs_Double.v
theories/Properties_Double.v
theories/Properties_MinMax.v
theories/Properties_Convert.v
theories/Proofs_Settings.v
theories/Properties_Settings.v
theories/Model_Vector.v
theories/Properties_Vector.v
theories/Spec_Extend.v
theories/Spec_Reorder.v
theories/Proofs_Extend.v
theories/Proofs_Like.v
theories/Proofs_LikeParse.v
theories/Proofs_LikeNew.v
theories/Proofs_Reorder.v
theories/Proofs_Reorder2.v
theories/Properties_Reorder.v
theories/Spec_Errors.v
theories/Properties_Errors.v
theories/Spec_Modes.v
theories/Proofs_Modes.v
theories/Properties_Modes.v
theories/Spec_Texts.v
theories/Proofs_Texts.v
theories/Properties_Texts.v
theories/Properties_Extend.v
theories/Spec_Dress.v
theories/Proofs_Dress.v
theories/Properties_Dress.v
theories/Properties_Undo.v
theories/Model_Copy.v
theories/Model_Calls.v
theories/Properties_Copy.v
theories/Properties_Calls.v
theories/Properties_References.v
theories/Properties_More.v
theories/Model_Faults.v
theories/Properties_Faults.v
theories/Model_Print.v
theories/Spec_Print.v
theories/Proofs_Print.v
theories/Properties_Print.v
theories/Model_CopyMeth.v
theories/Proofs_CopyMeth.v
theories/Properties_CopyMeth.v
theories/Model_Peek.v
theories/Spec_Peek.v
theories/Proofs_Peek.v
theories/Proofs_Peek2.v
theories/Proofs_Peek3.v
theories/Properties_Peek.v
theories/Properties_Explicit.v
theories/Properties_UsageStable.v
theories/Properties_Dash.v
theories/Properties_FlagOrder.v
theories/Properties_Move.v
theories/Properties_Bundled.v
theories/Properties_Bare.v
