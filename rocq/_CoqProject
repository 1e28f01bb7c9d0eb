-Q theories Verif
theories/Base.v
theories/Utf8.v
theories/Utf8_Proofs.v
theories/Wire_Model.v
theories/Wire_Spec.v
theories/Wire_Proofs.v
theories/Wire_Proofs2.v
theories/Wire_Proofs3.v
theories/Wire_Proofs4.v
theories/Wire_Examples.v
theories/Wire_Proofs5.v
theories/Wire_Props.v
theories/Async_Model.v
theories/Async_Spec.v
theories/Async_Proofs.v
theories/Async_Proofs2.v
theories/Async_Proofs3.v
theories/Async_Proofs4.v
theories/Async_Proofs5.v
theories/Async_Examples.v
theories/Async_Props.v
theories/Obj_Model.v
theories/Obj_Spec.v
theories/Obj_Proofs.v
theories/Obj_Proofs2.v
theories/Obj_Proofs3.v
theories/Obj_Proofs4.v
theories/Obj_Examples.v
theories/Obj_Props.v
theories/Hmap_Model.v
theories/Hmap_Spec.v
theories/Hmap_Proofs.v
theories/Hmap_Examples.v
theories/Hmap_Props.v
theories/Kobj_Model.v
theories/Kobj_Spec.v
theories/Kobj_Proofs.v
theories/Kobj_Examples.v
theories/Kobj_Props.v
theories/Buf_Model.v
theories/Buf_Spec.v
theories/Buf_Proofs.v
theories/Buf_Examples.v
theories/Scaf_Model.v
theories/Scaf_Spec.v
theories/Scaf_Proofs.v
theories/Scaf_Examples.v
theories/Buf_Props.v
theories/Scaf_Props.v
theories/Loop_Model.v
theories/Loop_Spec.v
theories/Loop_Proofs.v
theories/Loop_Proofs2.v
theories/Loop_Examples.v
theories/Loop_Props.v
theories/Ffut_Model.v
theories/Ffut_Spec.v
theories/Ffut_Proofs.v
theories/Ffut_Examples.v
theories/Ffut_Props.v
theories/Meta_Types.v
theories/Meta_Model.v
theories/Meta_Spec.v
theories/Meta_Proofs.v
theories/Meta_Proofs2.v
theories/Meta_Proofs3.v
theories/Meta_Examples.v
theories/Meta_Refute.v
theories/Meta_Props.v
theories/Names_Model.v
theories/Names_Spec.v
theories/Names_Proofs.v
theories/Names_Examples.v
theories/Names_Props.v
theories/Csum_Model.v
theories/Csum_Spec.v
theories/Csum_Proofs.v
theories/Csum_Examples.v
theories/Csum_Props.v
theories/Cyc_Model.v
theories/Cyc_Spec.v
theories/Cyc_Proofs.v
theories/Cyc_Examples.v
theories/Cyc_Props.v
theories/Canon_Model.v
theories/Canon_Spec.v
theories/Canon_Proofs.v
theories/Canon_Examples.v
theories/Canon_Props.v
theories/Sort_Model.v
theories/Sort_Spec.v
theories/Sort_Proofs.v
theories/Sort_Examples.v
theories/Sort_Props.v
theories/Disc_Model.v
theories/Disc_Spec.v
theories/Disc_Proofs.v
theories/Disc_Examples.v
theories/Disc_Props.v
theories/Reach_Model.v
theories/Reach_Spec.v
theories/Reach_Proofs.v
theories/Reach_Examples.v
theories/Reach_Props.v
theories/Meta_Eq.v
theories/Group_Model.v
theories/Group_Spec.v
theories/Group_Proofs.v
theories/Group_Examples.v
theories/Group_Props.v
theories/Univ_Model.v
theories/Univ_Spec.v
theories/Univ_Proofs.v
theories/Univ_Examples.v
theories/Univ_Props.v
theories/Ren_Model.v
theories/Ren_Spec.v
theories/Ren_Proofs.v
theories/Ren_Examples.v
theories/Ren_Props.v
theories/Fser_Model.v
theories/Fser_Spec.v
theories/Fser_Proofs.v
theories/Fser_Examples.v
theories/Fser_Props.v
theories/Cbk_Model.v
theories/Cbk_Spec.v
theories/Cbk_Proofs.v
theories/Cbk_Examples.v
theories/Cbk_Props.v
theories/Vers_Model.v
theories/Vers_Spec.v
theories/Vers_Proofs.v
theories/Vers_Examples.v
theories/Vers_Props.v
theories/Fgn_Model.v
theories/Fgn_Spec.v
theories/Fgn_Proofs.v
theories/Fgn_Proofs2.v
theories/Fgn_Proofs3.v
theories/Fgn_Proofs4.v
theories/Fgn_Proofs5.v
theories/Fgn_Examples.v
theories/Fgn_Props.v
theories/Jni_Model.v
theories/Jni_Spec.v
theories/Jni_Layout_Proofs.v
theories/Jni_Mem_Proofs.v
theories/Jni_Proofs.v
theories/Jni_Gen_Proofs.v
theories/Jni_Examples.v
theories/Jni_Refute.v
theories/Jni_Props.v
theories/Lit_Spec.v
theories/Lit_Model.v
theories/Lit_Text_Proofs.v
theories/Lit_Proofs.v
theories/Lit_Kotlin_Proofs.v
theories/Lit_Front_Proofs.v
theories/Lit_Refute.v
theories/Lit_Examples.v
theories/Lit_Props.v
theories/Doc_Spec.v
theories/Doc_Model.v
theories/Doc_Proofs.v
theories/Doc_Python_Proofs.v
theories/Doc_Refute.v
theories/Doc_Examples.v
theories/Doc_Props.v
theories/Sig_Spec.v
theories/Sig_Model.v
theories/Sig_Claims.v
theories/Sig_Proofs.v
theories/Sig_Refute.v
theories/Sig_Examples.v
theories/Sig_Props.v
theories/Path_Types.v
theories/Path_Spec.v
theories/Path_Model.v
theories/Path_Claims.v
theories/Path_Proofs.v
theories/Path_Decide.v
theories/Path_Refute.v
theories/Path_Examples.v
theories/Path_Props.v
theories/Cfg_Types.v
theories/Cfg_Spec.v
theories/Cfg_Model.v
theories/Cfg_Claims.v
theories/Cfg_Proofs.v
theories/Cfg_Refute.v
theories/Cfg_Examples.v
theories/Cfg_Props.v
theories/Use_Spec.v
theories/Use_Model.v
theories/Use_Claims.v
theories/Use_Proofs.v
theories/Use_Examples.v
theories/Use_Props.v
theories/Pub_Spec.v
theories/Pub_Model.v
theories/Pub_Claims.v
theories/Pub_Proofs.v
theories/Pub_Decide.v
theories/Pub_Refute.v
theories/Pub_Examples.v
theories/Pub_Props.v
theories/Rty_Types.v
theories/Rty_Spec.v
theories/Rty_Model.v
theories/Rty_Claims.v
theories/Rty_Proofs.v
theories/Rty_Decide.v
theories/Rty_Refute.v
theories/Rty_Examples.v
theories/Rty_Props.v
theories/Udl_Types.v
theories/Udl_Spec.v
theories/Udl_Model.v
theories/Udl_Claims.v
theories/Udl_Attrs.v
theories/Udl_Names.v
theories/Udl_Conv.v
theories/Udl_Proofs.v
theories/Udl_Final.v
theories/Udl_Refute.v
theories/Udl_Examples.v
theories/Udl_Props.v
theories/Api_Types.v
theories/Api_Spec.v
theories/Api_Model.v
theories/Api_Accept.v
theories/Api_Iface.v
theories/Api_Said.v
theories/Api_Pipe.v
theories/Api_Tree.v
theories/Api_Claims.v
theories/Api_Agree.v
theories/Api_Ready.v
theories/Api_Refute.v
theories/Api_Examples.v
theories/Api_Props.v
theories/Excl_Types.v
theories/Excl_Spec.v
theories/Excl_Model.v
theories/Excl_Claims.v
theories/Excl_Basics.v
theories/Excl_Ci.v
theories/Excl_Pl.v
theories/Excl_Proofs.v
theories/Excl_Refute.v
theories/Excl_Examples.v
theories/Excl_Props.v
theories/Swf_Model.v
theories/Swf_Spec.v
theories/Swf_Dbl.v
theories/Swf_Time.v
theories/Swf_Basics.v
theories/Swf_Read.v
theories/Swf_Write.v
theories/Swf_Refute.v
theories/Swf_Examples.v
theories/Swf_Props.v
theories/Own_Model.v
theories/Own_Spec.v
theories/Own_Proofs.v
theories/Own_Calls.v
theories/Own_Cross.v
theories/Own_Claims.v
theories/Own_Examples.v
theories/Own_Props.v
theories/Idn_Model.v
theories/Idn_Spec.v
theories/Idn_Words.v
theories/Idn_Proofs.v
theories/Idn_Distinct.v
theories/Idn_Claims.v
theories/Idn_Examples.v
theories/Idn_Props.v
theories/Tra_Model.v
theories/Tra_Spec.v
theories/Tra_Proofs.v
theories/Tra_Claims.v
theories/Tra_Examples.v
theories/Tra_Props.v
theories/Tml_Model.v
theories/Tml_Spec.v
theories/Tml_Proofs.v
theories/Tml_Examples.v
theories/Tml_Props.v
theories/Dep_Model.v
theories/Dep_Spec.v
theories/Dep_Proofs.v
theories/Dep_Examples.v
theories/Dep_Props.v
theories/Sym_Model.v
theories/Sym_Spec.v
theories/Sym_Proofs.v
theories/Sym_Lost.v
theories/Sym_Examples.v
theories/Sym_Props.v
theories/Src_Model.v
theories/Src_Spec.v
theories/Src_Proofs.v
theories/Src_Main.v
theories/Src_Accept.v
theories/Src_Examples.v
theories/Src_Props.v
theories/Stub_Model.v
theories/Stub_Spec.v
theories/Stub_Macros.v
theories/Stub_Proofs.v
theories/Stub_Parts.v
theories/Stub_Main.v
theories/Stub_Items.v
theories/Stub_Udl.v
theories/Stub_Claims.v
theories/Stub_Links.v
theories/Stub_Refute.v
theories/Stub_Examples.v
theories/Stub_Props.v
theories/Jcall_Model.v
theories/Jcall_Spec.v
theories/Jcall_Proofs.v
theories/Jcall_Main.v
theories/Jcall_Refute.v
theories/Jcall_Examples.v
theories/Jcall_Props.v
theories/Jasync_Model.v
theories/Jasync_Spec.v
theories/Jasync_Proofs.v
theories/Jasync_Main.v
theories/Jasync_Tally.v
theories/Jasync_Refute.v
theories/Jasync_Examples.v
theories/Jasync_Props.v
theories/Weed_Model.v
theories/Weed_Spec.v
theories/Weed_Tokens.v
theories/Weed_Refine.v
theories/Weed_Words.v
theories/Weed_Round.v
theories/Weed_Defs.v
theories/Weed_Main.v
theories/Weed_Sound.v
theories/Weed_Commas.v
theories/Weed_Refute.v
theories/Weed_Examples.v
theories/Weed_Props.v
theories/Whole_Model.v
theories/Whole_Spec.v
theories/Whole_Case.v
theories/Whole_Proofs.v
theories/Whole_Props.v
