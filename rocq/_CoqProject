-Q theories Verif
theories/Agg_Inv.v
theories/Agg_Masks.v
theories/Agg_Model.v
theories/Agg_Props.v
theories/Agg_Query.v
theories/Agg_Red.v
theories/Agg_Spec.v
theories/Agg_Steps.v
theories/Alloc_Model.v
theories/Alloc_Proofs.v
theories/Alloc_Props.v
theories/Alloc_Refine.v
theories/Alloc_Spec.v
theories/Arith_Model.v
theories/Arith_Proofs.v
theories/Arith_Props.v
theories/Arr_Api.v
theories/Arr_Model.v
theories/Arr_Proofs.v
theories/Arr_Props.v
theories/Arr_Run.v
theories/Arr_Spec.v
theories/Arr_State.v
theories/Asm_Chunk.v
theories/Asm_Examples.v
theories/Asm_Flags.v
theories/Asm_Mem.v
theories/Asm_Model.v
theories/Asm_Place.v
theories/Asm_Proofs.v
theories/Asm_Props.v
theories/Asm_Spec.v
theories/Asm_Text.v
theories/Axc_Model.v
theories/Axc_Proofs.v
theories/Axc_Props.v
theories/Axc_Spec.v
theories/Base.v
theories/Bits.v
theories/Cac_Files.v
theories/Cac_Model.v
theories/Cac_Parse.v
theories/Cac_Props.v
theories/Cac_Pub.v
theories/Cac_Spec.v
theories/Cac_Sweep.v
theories/Cnd_Model.v
theories/Cnd_Proofs.v
theories/Cnd_Props.v
theories/Cnd_Spec.v
theories/Comp_Model.v
theories/Comp_Proofs.v
theories/Comp_Props.v
theories/Comp_Spec.v
theories/Cov_Effects.v
theories/Cov_Ieee.v
theories/Cov_Mat.v
theories/Cov_Model.v
theories/Cov_Proofs.v
theories/Cov_Props.v
theories/Cov_Spec.v
theories/Cow_Model.v
theories/Cow_Proofs.v
theories/Cow_Props.v
theories/Cow_Spec.v
theories/Cpy_Model.v
theories/Cpy_Proofs.v
theories/Cpy_Props.v
theories/Crd_Buckets.v
theories/Crd_Examples.v
theories/Crd_Grow.v
theories/Crd_Inv.v
theories/Crd_Model.v
theories/Crd_Props.v
theories/Crd_Run.v
theories/Crd_Spec.v
theories/Crd_Steps.v
theories/Exp_Model.v
theories/Exp_Proofs.v
theories/Exp_Props.v
theories/Exp_Run.v
theories/Exp_Spec.v
theories/Fmt_Model.v
theories/Fmt_Proofs.v
theories/Fmt_Props.v
theories/Fmt_Spec.v
theories/FreeSlots_Model.v
theories/FreeSlots_Proofs.v
theories/FreeSlots_Props.v
theories/FreeSlots_Spec.v
theories/Frz_Model.v
theories/Frz_Proofs.v
theories/Frz_Props.v
theories/Frz_Spec.v
theories/Gat_Gather.v
theories/Gat_Inst.v
theories/Gat_Model.v
theories/Gat_Packet.v
theories/Gat_Proofs.v
theories/Gat_Props.v
theories/Gat_Reindex.v
theories/Gat_Spec.v
theories/Gat_Total.v
theories/Gemm_Base.v
theories/Gemm_Fold.v
theories/Gemm_Loop.v
theories/Gemm_Model.v
theories/Gemm_Pass.v
theories/Gemm_Props.v
theories/Gemm_Spec.v
theories/Gemm_Tile.v
theories/Gtr_Model.v
theories/Gtr_Proofs.v
theories/Gtr_Props.v
theories/Gtr_Run.v
theories/Gtr_Spec.v
theories/Half_Float.v
theories/Half_Model.v
theories/Half_Mul.v
theories/Half_Proofs.v
theories/Half_Props.v
theories/Half_Spec.v
theories/Img_Model.v
theories/Img_Proofs.v
theories/Img_Props.v
theories/Img_Spec.v
theories/Khi_Model.v
theories/Khi_Proofs.v
theories/Khi_Props.v
theories/Khi_Spec.v
theories/Lab_Free.v
theories/Lab_Inv.v
theories/Lab_Model.v
theories/Lab_Props.v
theories/Lab_Spec.v
theories/Lab_Steps.v
theories/Lab_Value.v
theories/Launch_Model.v
theories/Launch_Proofs.v
theories/Launch_Props.v
theories/Lay_Call.v
theories/Lay_Inst.v
theories/Lay_Model.v
theories/Lay_Proofs.v
theories/Lay_Props.v
theories/Lay_Read.v
theories/Lay_Scatter.v
theories/Lay_Spec.v
theories/Lay_Upload.v
theories/Lock_Log.v
theories/Lock_Model.v
theories/Lock_Proofs.v
theories/Lock_Props.v
theories/Lock_Spec.v
theories/Lred_Model.v
theories/Lred_Proofs.v
theories/Lred_Props.v
theories/Lred_Spec.v
theories/Lup_Acc.v
theories/Lup_Model.v
theories/Lup_More.v
theories/Lup_Proofs.v
theories/Lup_Props.v
theories/Lup_Spec.v
theories/Mig_Model.v
theories/Mig_Proofs.v
theories/Mig_Props.v
theories/Mig_Spec.v
theories/Mkperm_Model.v
theories/Mkperm_Proofs.v
theories/Mkperm_Props.v
theories/Mkperm_Run.v
theories/Mkperm_Sort.v
theories/Mkperm_Spec.v
theories/Msk_Model.v
theories/Msk_Proofs.v
theories/Msk_Props.v
theories/Msk_Spec.v
theories/Nst_Heap.v
theories/Nst_Int.v
theories/Nst_Model.v
theories/Nst_Props.v
theories/Nst_Spec.v
theories/Nst_Str.v
theories/Nst_StrOps.v
theories/Nst_StrRun.v
theories/Nst_Vec.v
theories/OpF_Props.v
theories/Op_Bits.v
theories/Op_Built.v
theories/Op_Div.v
theories/Op_FSpec.v
theories/Op_Float.v
theories/Op_Fold.v
theories/Op_Ieee.v
theories/Op_IeeeProofs.v
theories/Op_Model.v
theories/Op_Proofs.v
theories/Op_Props.v
theories/Op_Spec.v
theories/Op_Store.v
theories/Par_Model.v
theories/Par_Proofs.v
theories/Pkt_Model.v
theories/Pkt_Proofs.v
theories/Pkt_Props.v
theories/Pkt_Scatter.v
theories/Pkt_Spec.v
theories/Rb_Eval.v
theories/Rb_Model.v
theories/Rb_Proofs.v
theories/Rb_Props.v
theories/Rb_Spec.v
theories/Rec_Accept.v
theories/Rec_Front.v
theories/Rec_Model.v
theories/Rec_Proofs.v
theories/Rec_Props.v
theories/Rec_Spec.v
theories/Red_Laws.v
theories/Red_Model.v
theories/Red_Plan.v
theories/Red_Proofs.v
theories/Red_Props.v
theories/Red_Scan.v
theories/Red_Spec.v
theories/Registry_Model.v
theories/Registry_Proofs.v
theories/Registry_Props.v
theories/Registry_Spec.v
theories/Rpl_Call.v
theories/Rpl_Dry.v
theories/Rpl_Law.v
theories/Rpl_Model.v
theories/Rpl_Place.v
theories/Rpl_Props.v
theories/Rpl_Rec.v
theories/Rpl_Run.v
theories/Rpl_Sim.v
theories/Rpl_Spec.v
theories/Rpl_Step.v
theories/Rpl_Top.v
theories/Sched_Groups.v
theories/Sched_Model.v
theories/Sched_Proofs.v
theories/Sched_Props.v
theories/Sched_Spec.v
theories/Sct_Inv.v
theories/Sct_Model.v
theories/Sct_Proofs.v
theories/Sct_Props.v
theories/Sct_Spec.v
theories/Slf_Model.v
theories/Slf_Proofs.v
theories/Slf_Props.v
theories/Slf_Spec.v
theories/Sred_Inc.v
theories/Sred_Machine.v
theories/Sred_Model.v
theories/Sred_Proofs.v
theories/Sred_Props.v
theories/Sred_Props_Inc.v
theories/Sred_Spec.v
theories/Str_Fmt.v
theories/Str_Hist.v
theories/Str_Model.v
theories/Str_Num.v
theories/Str_Proofs.v
theories/Str_Props.v
theories/Str_Run.v
theories/Str_Spec.v
theories/Trav_Collect.v
theories/Trav_Group.v
theories/Trav_Model.v
theories/Trav_Order.v
theories/Trav_Proofs.v
theories/Trav_Props.v
theories/Trav_Spec.v
theories/Trav_Total.v
theories/Var_Check.v
theories/Var_Count.v
theories/Var_Create.v
theories/Var_Facts.v
theories/Var_Free.v
theories/Var_Inv.v
theories/Var_Model.v
theories/Var_Modify.v
theories/Var_New.v
theories/Var_Ops.v
theories/Var_Props.v
theories/Var_Run.v
theories/Var_Scopes.v
theories/Var_Spec.v
theories/Var_Step.v
theories/Vcl_Calls.v
theories/Vcl_Gen.v
theories/Vcl_Lane.v
theories/Vcl_Model.v
theories/Vcl_Out.v
theories/Vcl_Props.v
theories/Vcl_Spec.v
theories/Vcl_Table.v
theories/Vcl_Vec.v
