-Q theories Verif
theories/Base.v
theories/Memory_Model.v
theories/Memory_Spec.v
theories/Memory_Proofs.v
theories/Memory_Graph.v
theories/Memory_Runs.v
theories/Memory_Props.v
theories/Base_Proofs.v
theories/Scope_Model.v
theories/Scope_Spec.v
theories/Scope_Proofs.v
theories/Scope_Props.v
theories/Text_Model.v
theories/Text_Proofs.v
theories/Text_Props.v
theories/SemVer_Model.v
theories/SemVer_Props.v
theories/Tok_Model.v
theories/Tok_Spec.v
theories/Tok_Proofs.v
theories/Tok_Proofs2.v
theories/Tok_Proofs3.v
theories/Tok_Proofs4.v
theories/Tok_Proofs5.v
theories/Tok_Proofs6.v
theories/Tok_Proofs7.v
theories/Tok_Proofs8.v
theories/Tok_Props.v
theories/TypeTable.v
theories/TypeSys_Model.v
theories/Value_Model.v
theories/Value_Spec.v
theories/Value_Proofs.v
theories/Value_Proofs2.v
theories/Value_Proofs3.v
theories/Value_Proofs4.v
theories/Value_Float.v
theories/Value_Props.v
theories/Interp_Model.v
theories/Interp_Spec.v
theories/Interp_Eqs.v
theories/Interp_Proofs.v
theories/Interp_Back.v
theories/Interp_Hoare.v
theories/Gen_Model.v
theories/Gen_Spec.v
theories/Gen_Proofs.v
theories/Gen_Props.v
theories/Interp_Balance.v
theories/Interp_Mono.v
theories/Flow_Spec.v
theories/Flow_Proofs.v
theories/Interp_Props.v
theories/Parse_Model.v
theories/Parse_Spec.v
theories/Parse_Brackets.v
theories/Parse_Complete.v
theories/Parse_Sound.v
theories/Parse_Accepts.v
theories/Parse_Ends.v
theories/Parse_Tokens.v
theories/Parse_Print.v
theories/Parse_Props.v
theories/Coll_Model.v
theories/Coll_Spec.v
theories/Coll_Proofs.v
theories/Coll_Steps.v
theories/Coll_Runs.v
theories/Coll_Runs2.v
theories/Coll_Map.v
theories/Coll_Props.v
theories/Pkg_Model.v
theories/Pkg_Spec.v
theories/Pkg_Proofs.v
theories/Pkg_Props.v
theories/Proto_Model.v
theories/Proto_Spec.v
theories/Proto_Proofs.v
theories/Proto_Props.v
theories/Inherit_Model.v
theories/Inherit_Spec.v
theories/Inherit_Proofs.v
theories/Inherit_Proofs2.v
theories/Inherit_Proofs3.v
theories/Inherit_Props.v
theories/Enum_Model.v
theories/Enum_Spec.v
theories/Enum_Proofs.v
theories/Enum_Props.v
theories/Conf_Model.v
theories/Conf_Spec.v
theories/Conf_Proofs.v
theories/Conf_Props.v
theories/Frame_Model.v
theories/Frame_Spec.v
theories/Frame_Proofs.v
theories/Frame_Props.v
theories/Debug_Model.v
theories/Debug_Spec.v
theories/Debug_Proofs.v
theories/Debug_Props.v
theories/SysStr_Model.v
theories/SysStr_Spec.v
theories/SysStr_Proofs.v
theories/SysStr_Props.v
theories/Range_Model.v
theories/Range_Spec.v
theories/Range_Props.v
theories/Json_Model.v
theories/Json_Spec.v
theories/Json_Proofs.v
theories/Json_Props.v
theories/Const_Model.v
theories/Const_Spec.v
theories/Const_Proofs.v
theories/Const_Locals.v
theories/Const_Types.v
theories/Const_Pure.v
theories/Const_Props.v
theories/Decl_Model.v
theories/Decl_Spec.v
theories/Decl_Proofs.v
theories/Decl_Proofs2.v
theories/Decl_Proofs3.v
theories/Decl_Proofs4.v
theories/Decl_Proofs5.v
theories/Decl_Proofs6.v
theories/Decl_Marked.v
theories/Decl_Props.v
theories/Stmt_Model.v
theories/Stmt_Spec.v
theories/Stmt_Proofs.v
theories/Stmt_Accepts.v
theories/Stmt_Ends.v
theories/Stmt_Tokens.v
theories/Stmt_Write.v
theories/Stmt_Props.v
theories/Import_Model.v
theories/Import_Spec.v
theories/Import_Paths.v
theories/Import_Proofs.v
theories/Import_Proofs2.v
theories/Import_Proofs3.v
theories/Import_Proofs4.v
theories/Import_Props.v
theories/Run_Model.v
theories/Run_Spec.v
theories/Run_Base.v
theories/Run_Static.v
theories/Run_Elab.v
theories/Run_Load.v
theories/Run_Env.v
theories/Run_Fwd.v
theories/Run_Back.v
theories/Run_Props.v
theories/Args_Model.v
theories/Args_Spec.v
theories/Args_Proofs.v
theories/Args_Props.v
theories/Obj_Model.v
theories/Obj_Spec.v
theories/Obj_Proofs.v
theories/Obj_Accept.v
theories/Obj_Props.v
theories/File_Model.v
theories/File_Spec.v
theories/File_Proofs.v
theories/File_Proofs2.v
theories/File_Proofs3.v
theories/File_Props.v
theories/Csv_Model.v
theories/Csv_Spec.v
theories/Csv_Proofs.v
theories/Csv_Props.v
theories/App_Model.v
theories/App_Spec.v
theories/App_Proofs.v
theories/App_Props.v
theories/Build_Model.v
theories/Build_Spec.v
theories/Build_Proofs.v
theories/Build_Props.v
theories/CStr_Model.v
theories/CStr_Spec.v
theories/CStr_Proofs.v
theories/CStr_Props.v
theories/Lib_Model.v
theories/Lib_Spec.v
theories/Lib_Props.v
theories/Tree_Model.v
theories/Tree_Spec.v
theories/Tree_Proofs.v
theories/Tree_Props.v
theories/Char_Model.v
theories/Char_Props.v
theories/Query_Model.v
theories/Query_Spec.v
theories/Query_Proofs.v
theories/Query_Props.v
theories/Sudoku_Model.v
theories/Sudoku_Props.v
