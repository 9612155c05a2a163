-Q theories Verif
theories/Alex_Model.v
theories/Alex_Proofs1.v
theories/Alex_Proofs2.v
theories/Alex_Proofs3.v
theories/Alex_Spec.v
theories/Alex_Thm.v
theories/Alt_Model.v
theories/Alt_Proofs.v
theories/Alt_Proofs2.v
theories/Alt_Spec.v
theories/Alt_Thm.v
theories/Anet_Model.v
theories/Anet_Proofs1.v
theories/Anet_Proofs2.v
theories/Anet_Proofs3.v
theories/Anet_Proofs4.v
theories/Anet_Proofs5.v
theories/Anet_Proofs6.v
theories/Anet_Proofs7.v
theories/Anet_Spec.v
theories/Anet_Thm.v
theories/Anovar_Model.v
theories/Anovar_Proofs1.v
theories/Anovar_Proofs2.v
theories/Anovar_Proofs3.v
theories/Anovar_Proofs4.v
theories/Anovar_Spec.v
theories/Anovar_Thm.v
theories/Arep_Model.v
theories/Arep_Proofs1.v
theories/Arep_Proofs2.v
theories/Arep_Proofs3.v
theories/Arep_Proofs4.v
theories/Arep_Spec.v
theories/Arep_Thm.v
theories/Args_Model.v
theories/Args_Proofs1.v
theories/Args_Proofs2.v
theories/Args_Proofs3.v
theories/Args_Proofs4.v
theories/Args_Proofs5.v
theories/Args_Proofs6.v
theories/Args_Spec.v
theories/Args_Thm.v
theories/AsStm_Model.v
theories/AsStm_Proofs1.v
theories/AsStm_Proofs2.v
theories/AsStm_Proofs3.v
theories/AsStm_Spec.v
theories/AsStm_Thm.v
theories/AsTrn_Model.v
theories/AsTrn_Proofs.v
theories/AsTrn_Spec.v
theories/AsTrn_Thm.v
theories/Base.v
theories/Binom_Model.v
theories/Binom_Proofs.v
theories/Binom_Spec.v
theories/Binom_Thm.v
theories/Case_Model.v
theories/Case_Proofs.v
theories/Case_Spec.v
theories/Case_Thm.v
theories/Chan_Model.v
theories/Chan_Proofs.v
theories/Chan_Proofs2.v
theories/Chan_Proofs3.v
theories/Chan_Proofs4.v
theories/Chan_Spec.v
theories/Chan_Thm.v
theories/Chop_Model.v
theories/Chop_Proofs1.v
theories/Chop_Proofs2.v
theories/Chop_Proofs3.v
theories/Chop_Spec.v
theories/Chop_Thm.v
theories/Clog_Model.v
theories/Clog_Proofs1.v
theories/Clog_Proofs2.v
theories/Clog_Spec.v
theories/Clog_Thm.v
theories/Cnet_Model.v
theories/Cnet_Proofs1.v
theories/Cnet_Proofs2.v
theories/Cnet_Proofs3.v
theories/Cnet_Proofs4.v
theories/Cnet_Proofs5.v
theories/Cnet_Spec.v
theories/Cnet_Thm.v
theories/Compressed_Example.v
theories/Compressed_Model.v
theories/Compressed_Proofs.v
theories/Compressed_Spec.v
theories/Compressed_Thm.v
theories/Copy_Model.v
theories/Copy_Proofs1.v
theories/Copy_Proofs2.v
theories/Copy_Spec.v
theories/Copy_Thm.v
theories/Cor_Model.v
theories/Cor_Proofs1.v
theories/Cor_Proofs2.v
theories/Cor_Proofs3.v
theories/Cor_Proofs4.v
theories/Cor_Proofs5.v
theories/Cor_Spec.v
theories/Cor_Thm.v
theories/Ctm_Model.v
theories/Ctm_Proofs1.v
theories/Ctm_Proofs2.v
theories/Ctm_Proofs3.v
theories/Ctm_Proofs4.v
theories/Ctm_Proofs5.v
theories/Ctm_Proofs6.v
theories/Ctm_Proofs7.v
theories/Ctm_Spec.v
theories/Ctm_Thm.v
theories/Det_Model.v
theories/Det_Proofs.v
theories/Det_Proofs2.v
theories/Det_Proofs3.v
theories/Det_Proofs4.v
theories/Det_Proofs5.v
theories/Det_Spec.v
theories/Det_Thm.v
theories/Dhist_Thm.v
theories/Dtl_Model.v
theories/Dtl_Proofs.v
theories/Dtl_Spec.v
theories/Dtl_Thm.v
theories/Filt_Model.v
theories/Filt_Proofs.v
theories/Filt_Spec.v
theories/Filt_Thm.v
theories/Gdiff_Model.v
theories/Gdiff_Proofs.v
theories/Gdiff_Spec.v
theories/Gdiff_Thm.v
theories/Gen_Model.v
theories/Gen_Proofs1.v
theories/Gen_Proofs2.v
theories/Gen_Proofs3.v
theories/Gen_Spec.v
theories/Gen_Thm.v
theories/Graph_Example.v
theories/Graph_Model.v
theories/Graph_Proofs1.v
theories/Graph_Proofs2.v
theories/Graph_Proofs3.v
theories/Graph_Proofs4.v
theories/Graph_Proofs5.v
theories/Graph_Spec.v
theories/Graph_Thm.v
theories/LList_Model.v
theories/LList_Proofs.v
theories/LList_Spec.v
theories/LList_Thm.v
theories/Links_Model.v
theories/Links_Proofs.v
theories/Links_Spec.v
theories/Links_Thm.v
theories/Lun_Model.v
theories/Lun_Proofs.v
theories/Lun_Spec.v
theories/Lun_Thm.v
theories/Lur_Model.v
theories/Lur_Proofs1.v
theories/Lur_Proofs2.v
theories/Lur_Proofs3.v
theories/Lur_Spec.v
theories/Lur_Thm.v
theories/Lut_Model.v
theories/Lut_Proofs.v
theories/Lut_Proofs2.v
theories/Lut_Spec.v
theories/Lut_Thm.v
theories/Mapsswe_Model.v
theories/Mapsswe_Proofs.v
theories/Mapsswe_Proofs2.v
theories/Mapsswe_Proofs3.v
theories/Mapsswe_Spec.v
theories/Mapsswe_Thm.v
theories/Matrix_Model.v
theories/Matrix_Proofs.v
theories/Matrix_Spec.v
theories/Matrix_Thm.v
theories/Merge_Model.v
theories/Merge_Proofs.v
theories/Merge_Proofs2.v
theories/Merge_Proofs3.v
theories/Merge_Spec.v
theories/Merge_Thm.v
theories/Nce_Model.v
theories/Nce_Proofs.v
theories/Nce_Spec.v
theories/Nce_Thm.v
theories/NetDp_Model.v
theories/NetDp_Proofs1.v
theories/NetDp_Proofs2.v
theories/NetDp_Proofs3.v
theories/NetDp_Proofs4.v
theories/NetDp_Proofs5.v
theories/NetDp_Spec.v
theories/NetDp_Thm.v
theories/Net_Model.v
theories/Net_Proofs1.v
theories/Net_Proofs2.v
theories/Net_Proofs3.v
theories/Net_Spec.v
theories/Net_Thm.v
theories/Ngraph_Model.v
theories/Ngraph_Proofs1.v
theories/Ngraph_Proofs2.v
theories/Ngraph_Proofs3.v
theories/Ngraph_Proofs4.v
theories/Ngraph_Proofs5.v
theories/Ngraph_Spec.v
theories/Ngraph_Thm.v
theories/Order_Model.v
theories/Order_Proofs1.v
theories/Order_Proofs2.v
theories/Order_Proofs3.v
theories/Order_Spec.v
theories/Order_Thm.v
theories/Pad_Model.v
theories/Pad_Proofs.v
theories/Pad_Spec.v
theories/Pad_Thm.v
theories/Path_Model.v
theories/Path_Proofs.v
theories/Path_Spec.v
theories/Path_Thm.v
theories/Pra_Model.v
theories/Pra_Proofs1.v
theories/Pra_Proofs2.v
theories/Pra_Spec.v
theories/Pra_Thm.v
theories/Prune_Proofs.v
theories/Prune_Spec.v
theories/Prune_Thm.v
theories/Range_Thm.v
theories/Rank_Model.v
theories/Rank_Proofs1.v
theories/Rank_Proofs2.v
theories/Rank_Proofs3.v
theories/Rank_Proofs4.v
theories/Rank_Spec.v
theories/Rank_Thm.v
theories/Rcl_Model.v
theories/Rcl_Proofs.v
theories/Rcl_Spec.v
theories/Rcl_Thm.v
theories/Read_Model.v
theories/Read_Proofs.v
theories/Read_Proofs2.v
theories/Read_Proofs3.v
theories/Read_Proofs4.v
theories/Read_Proofs5.v
theories/Read_Proofs6.v
theories/Read_Spec.v
theories/Read_Thm.v
theories/Rep_Model.v
theories/Rep_Proofs.v
theories/Rep_Proofs2.v
theories/Rep_Proofs3.v
theories/Rep_Spec.v
theories/Rep_Thm.v
theories/Rfilter_Model.v
theories/Rfilter_Proofs.v
theories/Rfilter_Spec.v
theories/Rfilter_Thm.v
theories/Rfm_Model.v
theories/Rfm_Proofs.v
theories/Rfm_Spec.v
theories/Rfm_Thm.v
theories/Rlex_Proofs.v
theories/Rlex_Proofs2.v
theories/Rlex_Proofs3.v
theories/Rlex_Proofs4.v
theories/Rlex_Spec.v
theories/Rlex_Thm.v
theories/Rline_Model.v
theories/Rline_Proofs.v
theories/Rline_Spec.v
theories/Rline_Thm.v
theories/Rover_Model.v
theories/Rover_Proofs.v
theories/Rover_Spec.v
theories/Rover_Thm.v
theories/Rpg_Model.v
theories/Rpg_Proofs1.v
theories/Rpg_Proofs2.v
theories/Rpg_Proofs3.v
theories/Rpg_Proofs4.v
theories/Rpg_Spec.v
theories/Rpg_Thm.v
theories/Rttm_Model.v
theories/Rttm_Proofs1.v
theories/Rttm_Proofs2.v
theories/Rttm_Proofs3.v
theories/Rttm_Proofs4.v
theories/Rttm_Proofs5.v
theories/Rttm_Proofs6.v
theories/Rttm_Spec.v
theories/Rttm_Thm.v
theories/Scl_Model.v
theories/Scl_Proofs1.v
theories/Scl_Proofs2.v
theories/Scl_Proofs3.v
theories/Scl_Proofs4.v
theories/Scl_Proofs5.v
theories/Scl_Proofs6.v
theories/Scl_Spec.v
theories/Scl_Thm.v
theories/Scores_Model.v
theories/Scores_Proofs.v
theories/Scores_Proofs2.v
theories/Scores_Spec.v
theories/Scores_Thm.v
theories/Segm_Model.v
theories/Segm_Proofs.v
theories/Segm_Proofs2.v
theories/Segm_Proofs3.v
theories/Segm_Spec.v
theories/Segm_Thm.v
theories/Sep_Model.v
theories/Sep_Proofs.v
theories/Sep_Spec.v
theories/Sep_Thm.v
theories/Sgml_Model.v
theories/Sgml_Proofs1.v
theories/Sgml_Proofs2.v
theories/Sgml_Proofs3.v
theories/Sgml_Proofs4.v
theories/Sgml_Proofs5.v
theories/Sgml_Proofs6.v
theories/Sgml_Proofs7.v
theories/Sgml_Spec.v
theories/Sgml_Thm.v
theories/Sig_Model.v
theories/Sig_Proofs1.v
theories/Sig_Proofs2.v
theories/Sig_Proofs3.v
theories/Sig_Proofs4.v
theories/Sig_Spec.v
theories/Sig_Thm.v
theories/Sil_Model.v
theories/Sil_Proofs.v
theories/Sil_Spec.v
theories/Sil_Thm.v
theories/Skip_Model.v
theories/Skip_Spec.v
theories/Skip_Thm.v
theories/Stats_Model.v
theories/Stats_Proofs.v
theories/Stats_Spec.v
theories/Stats_Thm.v
theories/Stc_Model.v
theories/Stc_Proofs.v
theories/Stc_Spec.v
theories/Stc_Thm.v
theories/Store_Model.v
theories/Store_Proofs.v
theories/Store_Proofs2.v
theories/Store_Spec.v
theories/Store_Thm.v
theories/Summ_Model.v
theories/Summ_Proofs1.v
theories/Summ_Proofs2.v
theories/Summ_Proofs3.v
theories/Summ_Proofs4.v
theories/Summ_Spec.v
theories/Summ_Thm.v
theories/SysTest_Model.v
theories/SysTest_Proofs.v
theories/SysTest_Spec.v
theories/SysTest_Thm.v
theories/Tab_Model.v
theories/Tab_Proofs1.v
theories/Tab_Proofs2.v
theories/Tab_Proofs3.v
theories/Tab_Proofs4.v
theories/Tab_Proofs5.v
theories/Tab_Proofs6.v
theories/Tab_Spec.v
theories/Tab_Thm.v
theories/Text_Model.v
theories/Text_Proofs1.v
theories/Text_Proofs2.v
theories/Text_Proofs3.v
theories/Text_Proofs4.v
theories/Text_Spec.v
theories/Text_Thm.v
theories/Token_Model.v
theories/Token_Proofs.v
theories/Token_Spec.v
theories/Token_Thm.v
theories/Trn_Model.v
theories/Trn_Proofs.v
theories/Trn_Proofs2.v
theories/Trn_Proofs3.v
theories/Trn_Spec.v
theories/Trn_Thm.v
theories/Uem_Model.v
theories/Uem_Proofs.v
theories/Uem_Proofs2.v
theories/Uem_Proofs3.v
theories/Uem_Spec.v
theories/Uem_Thm.v
theories/Uni_Model.v
theories/Uni_Proofs1.v
theories/Uni_Proofs2.v
theories/Uni_Proofs3.v
theories/Uni_Spec.v
theories/Uni_Thm.v
theories/Wnet_Model.v
theories/Wnet_Proofs.v
theories/Wnet_Spec.v
theories/Wnet_Thm.v
theories/Word_Model.v
theories/Word_Proofs.v
theories/Word_Spec.v
theories/Word_Thm.v
theories/Wseg_Model.v
theories/Wseg_Proofs1.v
theories/Wseg_Proofs2.v
theories/Wseg_Proofs3.v
theories/Wseg_Proofs4.v
theories/Wseg_Proofs5.v
theories/Wseg_Proofs6.v
theories/Wseg_Spec.v
theories/Wseg_Thm.v
theories/Wtn_Model.v
theories/Wtn_Proofs1.v
theories/Wtn_Proofs2.v
theories/Wtn_Proofs3.v
theories/Wtn_Proofs4.v
theories/Wtn_Proofs5.v
theories/Wtn_Spec.v
theories/Wtn_Thm.v
theories/Wwl_Model.v
theories/Wwl_Proofs1.v
theories/Wwl_Proofs2.v
theories/Wwl_Proofs3.v
theories/Wwl_Spec.v
theories/Wwl_Thm.v
theories/Wws_Model.v
theories/Wws_Proofs.v
theories/Wws_Spec.v
theories/Wws_Thm.v
