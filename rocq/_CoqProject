-Q theories Verif
theories/Access_model.v
theories/Access_proofs.v
theories/Access_proofs2.v
theories/Access_props.v
theories/Access_spec.v
theories/Args_model.v
theories/Args_proofs.v
theories/Args_props.v
theories/Args_spec.v
theories/Bounds_exact.v
theories/Bounds_guard.v
theories/Bounds_model.v
theories/Bounds_proofs.v
theories/Bounds_props.v
theories/Bounds_spec.v
theories/Bsearch_model.v
theories/Bsearch_proofs.v
theories/Bsearch_props.v
theories/Bsearch_spec.v
theories/Cbase.v
theories/Cbase_facts.v
theories/Cmem.v
theories/Comment_model.v
theories/Comment_proofs.v
theories/Comment_props.v
theories/Comment_spec.v
theories/Cond_model.v
theories/Cond_proofs.v
theories/Cond_props.v
theories/Cond_spec.v
theories/Constr_model.v
theories/Constr_proofs.v
theories/Constr_proofs2.v
theories/Constr_props.v
theories/Constr_spec.v
theories/Cppexp_model.v
theories/Cppexp_proofs.v
theories/Cppexp_proofs2.v
theories/Cppexp_proofs3.v
theories/Cppexp_props.v
theories/Cppexp_spec.v
theories/Ctab_model.v
theories/Ctab_proofs.v
theories/Ctab_props.v
theories/Ctab_spec.v
theories/Ctdump_model.v
theories/Ctdump_proofs.v
theories/Ctdump_props.v
theories/Ctdump_spec.v
theories/Decl_model.v
theories/Decl_proofs.v
theories/Decl_props.v
theories/Decl_spec.v
theories/Def_model.v
theories/Def_proofs.v
theories/Def_props.v
theories/Def_spec.v
theories/Dump_model.v
theories/Dump_proofs.v
theories/Dump_props.v
theories/Dump_spec.v
theories/Eff_loop.v
theories/Eff_model.v
theories/Eff_proofs.v
theories/Eff_props.v
theories/Eff_spec.v
theories/Flagname_model.v
theories/Flagname_proofs.v
theories/Flagname_props.v
theories/Flagname_spec.v
theories/Flagset_model.v
theories/Flagset_proofs.v
theories/Flagset_props.v
theories/Flagset_spec.v
theories/Flagtab_model.v
theories/Flow_model.v
theories/Flow_proofs.v
theories/Flow_props.v
theories/Flow_spec.v
theories/Format_model.v
theories/Format_proofs.v
theories/Format_props.v
theories/Format_spec.v
theories/Guard_model.v
theories/Guard_proofs.v
theories/Guard_props.v
theories/Guard_spec.v
theories/Hash_model.v
theories/Hash_proofs.v
theories/Hash_props.v
theories/Hash_spec.v
theories/Inits_model.v
theories/Inits_proofs.v
theories/Inits_props.v
theories/Inits_spec.v
theories/Intset_model.v
theories/Intset_proofs.v
theories/Intset_props.v
theories/Intset_spec.v
theories/Limit_model.v
theories/Limit_proofs.v
theories/Limit_props.v
theories/Limit_spec.v
theories/Lits_model.v
theories/Lits_proofs.v
theories/Lits_props.v
theories/Lits_spec.v
theories/Loc_model.v
theories/Loc_proofs.v
theories/Loc_props.v
theories/Loc_spec.v
theories/Macro_args.v
theories/Macro_build.v
theories/Macro_call.v
theories/Macro_hash.v
theories/Macro_lex.v
theories/Macro_model.v
theories/Macro_paste.v
theories/Macro_proofs.v
theories/Macro_props.v
theories/Macro_scan.v
theories/Macro_spec.v
theories/Macro_str.v
theories/Macro_sub.v
theories/Mark_model.v
theories/Mark_proofs.v
theories/Mark_props.v
theories/Mark_spec.v
theories/Match_model.v
theories/Match_more_proofs.v
theories/Match_proofs.v
theories/Match_props.v
theories/Match_spec.v
theories/Mods_model.v
theories/Mods_proofs.v
theories/Mods_props.v
theories/Mods_spec.v
theories/Name_model.v
theories/Name_proofs.v
theories/Name_props.v
theories/Name_spec.v
theories/Names_model.v
theories/Names_proofs.v
theories/Names_props.v
theories/Names_spec.v
theories/Nullflow_model.v
theories/Nullflow_proofs.v
theories/Nullflow_props.v
theories/Nullflow_spec.v
theories/Oper_model.v
theories/Oper_proofs.v
theories/Oper_proofs2.v
theories/Oper_proofs3.v
theories/Oper_proofs4.v
theories/Oper_proofs5.v
theories/Oper_props.v
theories/Oper_spec.v
theories/Order_ev_proofs.v
theories/Order_model.v
theories/Order_prec_proofs.v
theories/Order_proofs.v
theories/Order_props.v
theories/Order_spec.v
theories/Own_leak_proofs.v
theories/Own_model.v
theories/Own_proofs.v
theories/Own_props.v
theories/Own_spec.v
theories/Own_use_proofs.v
theories/Ownbr_exact_proofs.v
theories/Ownbr_model.v
theories/Ownbr_proofs.v
theories/Ownbr_props.v
theories/Ownbr_spec.v
theories/Ownbr_use_proofs.v
theories/Path_model.v
theories/Path_proofs.v
theories/Path_props.v
theories/Path_spec.v
theories/Pos_model.v
theories/Pos_proofs.v
theories/Pos_props.v
theories/Pos_spec.v
theories/Prim_model.v
theories/Prim_proofs.v
theories/Prim_props.v
theories/Prim_spec.v
theories/Reader_model.v
theories/Reader_proofs.v
theories/Reader_props.v
theories/Reader_spec.v
theories/Redef_model.v
theories/Redef_proofs.v
theories/Redef_props.v
theories/Redef_spec.v
theories/Scope_model.v
theories/Scope_proofs.v
theories/Scope_props.v
theories/Scope_run.v
theories/Scope_spec.v
theories/Scope_unused.v
theories/Strlit_model.v
theories/Strlit_proofs.v
theories/Strlit_props.v
theories/Strlit_spec.v
theories/Switch_model.v
theories/Switch_proofs.v
theories/Switch_props.v
theories/Switch_spec.v
theories/Table_model.v
theories/Table_proofs.v
theories/Table_props.v
theories/Table_spec.v
theories/Tspec_model.v
theories/Tspec_proofs.v
theories/Tspec_props.v
theories/Tspec_spec.v
theories/Uses_model.v
theories/Uses_proofs.v
theories/Uses_props.v
theories/Uses_spec.v
theories/Wrap_model.v
theories/Wrap_proofs.v
theories/Wrap_props.v
theories/Wrap_spec.v
