-Q theories Verif
theories/Base.v
theories/Order.v
theories/Sort_Model.v
theories/Sort_Proofs.v
theories/Sort_Props.v
theories/Slots.v
theories/Pqueue_Model.v
theories/Pqueue_Spec.v
theories/Pqueue_Proofs.v
theories/Pqueue_Props.v
theories/Vec_Model.v
theories/Vec_Spec.v
theories/Vec_Proofs.v
theories/Stack_Model.v
theories/Vec_Iter.v
theories/Vec_Props.v
theories/Stack_Proofs.v
theories/Stack_Props.v
theories/Pow2.v
theories/Pow2_Props.v
theories/Deque_Model.v
theories/Deque_Spec.v
theories/Deque_Proofs.v
theories/Deque_Props.v
theories/List_Model.v
theories/List_Spec.v
theories/List_Proofs.v
theories/List_Proofs2.v
theories/List_Props.v
theories/Float32.v
theories/Hmap_Model.v
theories/Hmap_Spec.v
theories/Hmap_Proofs.v
theories/Hmap_Proofs2.v
theories/Hmap_Proofs3.v
theories/Hmap_Witness.v
theories/Hmap_Safe.v
theories/Hmap_Props.v
theories/Smap_Model.v
theories/Smap_Spec.v
theories/Smap_Tree.v
theories/Smap_Sim.v
theories/Smap_Proofs.v
theories/Smap_Proofs2.v
theories/Smap_Proofs3.v
theories/Smap_Proofs4.v
theories/Smap_Proofs5.v
theories/Smap_Props.v
theories/Random_Model.v
theories/Random_Spec.v
theories/Random_Proofs.v
theories/Random_Props.v
theories/Cbits_Model.v
theories/Cbits_Spec.v
theories/Cbits_Proofs.v
theories/Cbits_Proofs2.v
theories/Cbits_Proofs3.v
theories/Cbits_Proofs4.v
theories/Cbits_Props.v
theories/Utf8_Tab.v
theories/Utf8_Model.v
theories/Utf8_Spec.v
theories/Utf8_Proofs.v
theories/Utf8_Proofs2.v
theories/Utf8_Proofs3.v
theories/Utf8_Proofs4.v
theories/Utf8_Proofs5.v
theories/Utf8_Proofs6.v
theories/Utf8_Props.v
theories/View_Model.v
theories/View_Spec.v
theories/View_Proofs.v
theories/View_Proofs2.v
theories/View_Props.v
theories/Cstr_Model.v
theories/Cstr_Spec.v
theories/Cstr_Proofs.v
theories/Cstr_Proofs2.v
theories/Cstr_Proofs3.v
theories/Cstr_Props.v
theories/Cspan_Model.v
theories/Cspan_Spec.v
theories/Cspan_Proofs.v
theories/Cspan_Proofs2.v
theories/Cspan_Proofs3.v
theories/Cspan_Proofs4.v
theories/Cspan_Props.v
theories/Range_Model.v
theories/Range_Spec.v
theories/Range_Proofs.v
theories/Range_Props.v
theories/Filter_Model.v
theories/Filter_Spec.v
theories/Filter_Proofs.v
theories/Filter_Props.v
theories/Util_Model.v
theories/Util_Spec.v
theories/Util_Proofs.v
theories/Util_Proofs2.v
theories/Util_Props.v
theories/Arc_Model.v
theories/Arc_Spec.v
theories/Arc_Proofs.v
theories/Arc_Proofs2.v
theories/Arc_Props.v
theories/Box_Model.v
theories/Box_Spec.v
theories/Box_Proofs.v
theories/Box_Proofs2.v
theories/Box_Proofs3.v
theories/Box_Props.v
theories/Opt_Model.v
theories/Opt_Spec.v
theories/Opt_Proofs.v
theories/Opt_Proofs2.v
theories/Opt_Proofs3.v
theories/Opt_Proofs4.v
theories/Opt_Props.v
theories/Cco_Model.v
theories/Cco_Spec.v
theories/Cco_Proofs.v
theories/Cco_Proofs2.v
theories/Cco_Props.v
theories/Fiber_Model.v
theories/Fiber_Spec.v
theories/Fiber_Proofs.v
theories/Fiber_Proofs2.v
theories/Fiber_Props.v
theories/Sema_Model.v
theories/Sema_Spec.v
theories/Sema_Proofs.v
theories/Sema_Props.v
theories/Regex_Model.v
theories/Regex_Spec.v
theories/Regex_Proofs.v
theories/Regex_Proofs2.v
theories/Regex_Proofs3.v
theories/Regex_Props.v
theories/Recomp_Model.v
theories/Recomp_Spec.v
theories/Recomp_Proofs.v
theories/Recomp_Proofs2.v
theories/Recomp_Proofs3.v
theories/Recomp_Proofs4.v
theories/Recomp_Proofs5.v
theories/Recomp_Proofs6.v
theories/Recomp_Proofs7.v
theories/Recomp_Proofs8.v
theories/Recomp_Proofs9.v
theories/Recomp_Proofs10.v
theories/Recomp_Proofs11.v
theories/Recomp_Proofs12.v
theories/Recomp_Proofs13.v
theories/Recomp_Proofs14.v
theories/Recomp_Syntax.v
theories/Recomp_Proofs15.v
theories/Recomp_Proofs16.v
theories/Recomp_Proofs17.v
theories/Recomp_Props.v
theories/Ucd_Model.v
theories/Ucd_Spec.v
theories/Ucd_Proofs.v
theories/Ucd_Proofs2.v
theories/Ucd_Props.v
theories/Resub_Model.v
theories/Resub_Spec.v
theories/Resub_Proofs.v
theories/Resub_Proofs2.v
theories/Resub_Proofs3.v
theories/Resub_Props.v
theories/Regex_Proofs4.v
theories/Regex2_Props.v
theories/Regex_Proofs5.v
theories/Regex3_Props.v
theories/Fmt_Model.v
theories/Fmt_Spec.v
theories/Fmt_Proofs.v
theories/Fmt_Proofs2.v
theories/Fmt_Proofs3.v
theories/Fmt_Proofs4.v
theories/Fmt_Props.v
theories/Own_Model.v
theories/Own_Spec.v
theories/Own_Proofs.v
theories/Own_Proofs2.v
theories/Own_Proofs3.v
theories/Own_Proofs4.v
theories/Own_Props.v
theories/Hash_Props.v
theories/Task_Model.v
theories/Task_Spec.v
theories/Task_Proofs.v
theories/Task_Props.v
theories/Lown_Model.v
theories/Lown_Spec.v
theories/Lown_Proofs.v
theories/Lown_Proofs2.v
theories/Lown_Proofs3.v
theories/Lown_Proofs4.v
theories/Lown_Props.v
theories/Oomq_Model.v
theories/Oomq_Spec.v
theories/Oomq_Proofs.v
theories/Oomq_Props.v
theories/Oomh_Model.v
theories/Oomh_Spec.v
theories/Oomh_Proofs.v
theories/Oomh_Props.v
theories/Ooms_Model.v
theories/Ooms_Props.v
theories/Oomc_Model.v
theories/Oomc_Props.v
theories/Hraw_Model.v
theories/Hraw_Spec.v
theories/Hraw_Proofs.v
theories/Hraw_Props.v
theories/Sraw_Model.v
theories/Sraw_Spec.v
theories/Sraw_Proofs.v
theories/Sraw_Props.v
theories/Hali_Model.v
theories/Hali_Props.v
theories/Sali_Model.v
theories/Sali_Props.v
theories/Vali_Model.v
theories/Vali_Props.v
theories/Sum_Model.v
theories/Sum_Spec.v
theories/Sum_Proofs.v
theories/Sum_Props.v
theories/Var_Model.v
theories/Var_Spec.v
theories/Var_Proofs.v
theories/Varc_Model.v
theories/Varc_Spec.v
theories/Var_Props.v
theories/Fvar_Model.v
theories/Fvar_Spec.v
theories/Fvar_Proofs.v
theories/Fvar_Props.v
theories/Svar_Model.v
theories/Svar_Spec.v
theories/Svar_Proofs.v
theories/Svar_Props.v
theories/Bvar_Model.v
theories/Bvar_Spec.v
theories/Bvar_Proofs.v
theories/Bvar_Props.v
