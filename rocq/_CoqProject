-Q theories Verif
theories/Base.v
theories/Interp_Model.v
theories/Interp_Spec.v
theories/Interp_Proof.v
theories/Interp_Escape.v
theories/Vars_Proof.v
theories/Vars_Errors.v
theories/P_Interp.v
theories/Cond_Model.v
theories/Cond_Spec.v
theories/Cond_Proof.v
theories/P_Cond.v
theories/Types_Model.v
theories/Valid_Model.v
theories/Valid_Spec.v
theories/Valid_Proof.v
theories/Alias_Proof.v
theories/P_Valid.v
theories/Path_Model.v
theories/Path_Proof.v
theories/StrOrder.v
theories/Include_Model.v
theories/Include_Spec.v
theories/Include_Proof.v
theories/P_Include.v
theories/Run_Model.v
theories/Run_Logic.v
theories/Run_Spec.v
theories/Run_Inv.v
theories/Run_Proof.v
theories/Run_Facts.v
theories/Run_Own.v
theories/Run_Drive.v
theories/Run_Term.v
theories/Run_Seq.v
theories/Run_Apart.v
theories/P_Run.v
theories/P_Run_Cmd.v
theories/Run_Main.v
theories/P_Run_Parse.v
theories/Utf8_Model.v
theories/Utf8_Spec.v
theories/Utf8_Proof.v
theories/Out_Model.v
theories/Out_Spec.v
theories/Out_Proof.v
theories/Out_View.v
theories/Out_Sent.v
theories/P_Out.v
theories/P_Out_View.v
theories/Pick_Model.v
theories/Pick_Spec.v
theories/Pick_Proof.v
theories/P_Pick.v
theories/Cli_Model.v
theories/Cli_Spec.v
theories/Cli_Proof.v
theories/Cli_Tree.v
theories/P_Cli.v
theories/Update_Model.v
theories/Update_Proof.v
theories/P_Update.v
theories/Doc_Model.v
theories/Doc_Spec.v
theories/Doc_Proof.v
theories/Doc_Item.v
theories/Doc_Tree.v
theories/Doc_File.v
theories/Doc_Errors.v
theories/Doc_Example.v
theories/P_Doc.v
theories/P_Doc_Errors.v
theories/P_Doc_Alias.v
theories/Prompt_Model.v
theories/P_Prompt.v
theories/P_Prompt_Run.v
theories/Schema_Model.v
theories/Schema_Proof.v
theories/P_Schema.v
theories/View_Model.v
theories/View_Spec.v
theories/View_Proof.v
theories/P_View.v
theories/Mark_Model.v
theories/P_Mark.v
theories/Loc_Model.v
theories/P_Loc.v
theories/Label_Model.v
theories/P_Label.v
theories/Nest_Model.v
theories/Nest_Spec.v
theories/Nest_Proof.v
theories/Nest_Hist.v
theories/P_Nest.v
theories/Order_Model.v
theories/Order_Spec.v
theories/Order_Proof.v
theories/P_Order.v
theories/Msg_Model.v
theories/Msg_Proof.v
theories/P_Msg.v
theories/Msg_Place.v
theories/P_Place.v
theories/Proc_Model.v
theories/Proc_Proof.v
theories/P_Proc.v
theories/Race_Spec.v
theories/Race_Proof.v
theories/P_Race.v
theories/P_Dry.v
theories/Dest_Spec.v
theories/Dest_Proof.v
theories/P_Dest.v
theories/Det_Spec.v
theories/Det_Proof.v
theories/P_Det.v
theories/P_Same.v
theories/P_Apart.v
theories/P_Outcome.v
theories/P_Ready.v
theories/Sim_Proof.v
theories/Look_Spec.v
theories/Look_Proof.v
theories/P_Look.v
theories/Secret_Spec.v
theories/Secret_Proof.v
theories/P_Secret.v
theories/Local_Spec.v
theories/Local_Proof.v
theories/P_Local.v
theories/Mod_Spec.v
theories/Mod_Sim.v
theories/Mod_Vars.v
theories/Mod_Proof.v
theories/P_Mod.v
theories/P_Mod_Need.v
theories/Where_Spec.v
theories/P_Where.v
theories/Value_Spec.v
theories/P_Value.v
theories/P_Words.v
theories/Implied_Spec.v
theories/Know_Sim.v
theories/Implied_Proof.v
theories/P_Implied.v
theories/Alone_Spec.v
theories/Alone_Proof.v
theories/P_Alone.v
theories/Screen_Model.v
theories/Screen_Spec.v
theories/Screen_Proof.v
theories/Screen_Inv.v
theories/Screen_Main.v
theories/Screen_End.v
theories/P_Screen.v
theories/P_Prompt_Form.v
theories/Limit_Spec.v
theories/Limit_Proof.v
theories/P_Limit.v
theories/Keys_Spec.v
theories/Keys_Proof.v
theories/P_Keys.v
theories/Unknown_Spec.v
theories/Unknown_Proof.v
theories/P_Unknown.v
theories/P_Skip.v
theories/P_Refs.v
theories/Color_Model.v
theories/Color_Spec.v
theories/P_Color.v
theories/P_Root.v
