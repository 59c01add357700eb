-Q theories Verif
theories/Base.v
theories/Num.v
theories/Tensor.v
theories/PScales.v
theories/Names.v
theories/Distr.v
theories/PDModel.v
theories/PDUtils.v
theories/RNumLemmas.v
theories/TensorBcast.v
theories/PScales_Spec.v
theories/PScales_Proofs.v
theories/PScales_Prod.v
theories/PScales_Request.v
theories/Thm_PScales.v
theories/Names_Spec.v
theories/Names_Proofs.v
theories/Thm_Names.v
theories/OdLemmas.v
theories/TensorLemmas.v
theories/PD_Spec.v
theories/PD_Make.v
theories/PD_Sums.v
theories/PD_Valid.v
theories/PD_Marg.v
theories/PD_Marg2.v
theories/PD_Examples.v
theories/PD_MargRefute.v
theories/PD_MargThm.v
theories/PD_MargIff.v
theories/PD_MargEx.v
theories/Thm_Marg.v
theories/SPModel.v
theories/SP_Spec.v
theories/SP_Proofs.v
theories/SP_Walk.v
theories/SP_Scores.v
theories/SP_Examples.v
theories/Thm_SP.v
theories/Likelihoods.v
theories/Lik_Spec.v
theories/Lik_Proofs.v
theories/Lik_Slice.v
theories/Thm_Likelihoods.v
theories/VariableModel.v
theories/Var_Spec.v
theories/Var_Proofs.v
theories/Var_Proofs2.v
theories/Var_Delta.v
theories/Var_More.v
theories/Var_Move.v
theories/Thm_Variable.v
theories/RVModel.v
theories/RV_Spec.v
theories/RV_Proofs.v
theories/RV_Matrix.v
theories/RV_More.v
theories/RVStep_Spec.v
theories/Thm_RV.v
theories/ExprModel.v
theories/Expr_Spec.v
theories/Expr_Proofs.v
theories/Expr_More.v
theories/Expr_Map.v
theories/Thm_Expr.v
theories/FunctionalModel.v
theories/Functional_Spec.v
theories/Functional_Proofs.v
theories/Functional_More.v
theories/Thm_Functional.v
theories/FieldModel.v
theories/Field_Spec.v
theories/Field_Proofs.v
theories/Field_Delta.v
theories/Field_Dims.v
theories/Field_More.v
theories/Thm_Field.v
theories/DependenceModel.v
theories/Dependence_Spec.v
theories/Dependence_Proofs.v
theories/Dependence_More.v
theories/Dependence_Ops.v
theories/SDUtils.v
theories/SDUtils_Spec.v
theories/SDUtils_Proofs.v
theories/Thm_Dependence.v
theories/CondCovModel.v
theories/CondCov_Spec.v
theories/CondCov_Proofs.v
theories/Thm_CondCov.v
theories/Distr_Spec.v
theories/Distr_Proofs.v
theories/Thm_Distr.v
theories/PD_Simple_Spec.v
theories/PD_Simple.v
theories/PD_Rekey.v
theories/PD_MakeGen.v
theories/PD_Summate_Spec.v
theories/PD_Summate.v
theories/PD_SimpleEx.v
theories/PD_SimpleThm.v
theories/Thm_PDSimple.v
theories/PD_Product_Spec.v
theories/PD_Product1.v
theories/PD_Align.v
theories/PD_Product2.v
theories/PD_Product3.v
theories/PD_ProductEx.v
theories/PD_Counts.v
theories/PD_CountsEx.v
theories/PD_Scalars.v
theories/Thm_Product.v
theories/PD_Move.v
theories/PD_Cond.v
theories/PD_Cond2.v
theories/PD_Cond_Spec.v
theories/PD_Cond3.v
theories/PD_CondThm.v
theories/PD_CondEx.v
theories/Thm_Cond.v
theories/PD_Bayes_Spec.v
theories/PD_Div_Spec.v
theories/PD_Div.v
theories/PD_Bayes.v
theories/PD_DivExact.v
theories/PD_DivEx.v
theories/PD_BayesEx.v
theories/Thm_Bayes.v
theories/PD_Sort_Spec.v
theories/PD_Sort.v
theories/PD_SortEx.v
theories/Thm_Sort.v
theories/PD_Expect_Spec.v
theories/PD_Expect.v
theories/PD_ExpectThm.v
theories/Thm_Expect.v
theories/PD_Prod_Spec.v
theories/PD_Prod.v
theories/PD_ProdThm.v
theories/Thm_Prod.v
theories/PD_Remarg_Spec.v
theories/PD_Remarg.v
theories/PD_RemargThm.v
theories/Thm_Remarg.v
theories/PD_Call_Spec.v
theories/PD_Call.v
theories/PD_Call2.v
theories/PD_CallThm.v
theories/Thm_Call.v
theories/Var_Forms_Spec.v
theories/Var_Forms.v
theories/SP_Collect.v
theories/Thm_VarForms.v
theories/PDFile.v
theories/PD_File_Spec.v
theories/PD_File.v
theories/PD_FileThm.v
theories/Thm_File.v
theories/PDQuantile.v
theories/PD_Quantile_Spec.v
theories/PD_Quantile.v
theories/PD_QuantileThm.v
theories/Thm_Quantile.v
theories/RFModel.v
theories/RF_Spec.v
theories/RF_Proofs.v
theories/RF_Joint.v
theories/RF_Step.v
theories/RF_Single_Spec.v
theories/RF_Single.v
theories/RF_Thm.v
theories/Thm_RF.v
theories/LookupModel.v
theories/Lookup_Spec.v
theories/Lookup_Proofs.v
theories/Lookup_Thm.v
theories/Thm_Lookup.v
theories/PD_Spelling.v
theories/SDModel.v
theories/SD_Spec.v
theories/SD_Proofs.v
theories/SD_Joint.v
theories/SD_Thm.v
theories/SD_Iid.v
theories/SD_More.v
theories/SD_Set.v
theories/SD_Ex.v
theories/Thm_SD.v
theories/PD_Rescaled_Spec.v
theories/PD_Rescaled.v
theories/Thm_Rescaled.v
theories/ChainModel.v
theories/Chain_Spec.v
theories/Chain_Proofs.v
theories/Chain_Run.v
theories/Chain_Thm.v
theories/Chain_Uniform.v
theories/Chain_Set.v
theories/Chain_Rules.v
theories/Chain_Ex.v
theories/GibbsModel.v
theories/Gibbs_Spec.v
theories/Gibbs_Run.v
theories/Gibbs_Proofs.v
theories/Gibbs_Thm.v
theories/Gibbs_More.v
theories/Gibbs_Ex.v
theories/Thm_Gibbs.v
theories/Thm_Chain.v
theories/OmcModel.v
theories/Omc_Spec.v
theories/Omc_Proofs.v
theories/Omc_Run.v
theories/Omc_Thm.v
theories/Omc_Ex.v
theories/Thm_Omc.v
theories/RV_Step.v
theories/RVStep_Ex.v
theories/Thm_RVStep.v
theories/MVModel.v
theories/MV_Spec.v
theories/MV_Proofs.v
theories/MV_Thm.v
theories/MV_Ex.v
theories/Thm_MV.v
theories/DistModel.v
theories/Dist_Spec.v
theories/Dist_Proofs.v
theories/Dist_Thm.v
theories/Dist_Ex.v
theories/Thm_Dist.v
theories/SymModel.v
theories/Sym_Spec.v
theories/Sym_Parse.v
theories/Sym_Proofs.v
theories/Sym_More.v
theories/Sym_Ex.v
theories/Thm_Sym.v
theories/CFModel.v
theories/CF_Spec.v
theories/CF_Proofs.v
theories/CF_Calls.v
theories/CF_Windows.v
theories/Thm_CF.v
theories/DelegModel.v
theories/Deleg_Spec.v
theories/Deleg_Proofs.v
theories/Deleg_More.v
theories/Thm_Deleg.v
theories/ArrModel.v
theories/Arr_Proofs.v
theories/Arr_Thm.v
theories/Arr_Ex.v
theories/Thm_Arr.v
theories/SubModel.v
theories/Sub_Spec.v
theories/Sub_Proofs.v
theories/Sub_Call.v
theories/Thm_Sub.v
theories/TransModel.v
theories/Trans_Spec.v
theories/Trans_Proofs.v
theories/Trans_Values.v
theories/Trans_Calls.v
theories/Trans_Ex.v
theories/Thm_Trans.v
theories/DiskModel.v
theories/Disk_Spec.v
theories/Disk_Proofs.v
theories/Disk_Reads.v
theories/Disk_Ex.v
theories/Thm_Disk.v
theories/IdentModel.v
theories/Ident_Spec.v
theories/Ident_Proofs.v
theories/Ident_Move.v
theories/Thm_Ident.v
theories/ProbModel.v
theories/ProbO_Spec.v
theories/ProbO_Proofs.v
theories/Thm_ProbO.v
theories/FProbModel.v
theories/FProb_Spec.v
theories/FProb_Proofs.v
theories/Thm_FProb.v
theories/SumModel.v
theories/Sum_Spec.v
theories/Sum_Proofs.v
theories/Thm_Sum.v
theories/LenModel.v
theories/Len_Spec.v
theories/Len_Proofs.v
theories/Thm_Len.v
theories/AliasModel.v
theories/Alias_Spec.v
theories/Alias_Proofs.v
theories/Thm_Alias.v
theories/PDSetModel.v
theories/PDSet_Spec.v
theories/PDSet_Proofs.v
theories/PDSet_Ex.v
theories/Thm_PDSet.v
theories/VType_Spec.v
theories/Var_Types.v
theories/Thm_VType.v
theories/ShareModel.v
theories/Share_Spec.v
theories/Share_Proofs.v
theories/Share_Ex.v
theories/Thm_Share.v
theories/EqModel.v
theories/Eq_Spec.v
theories/Eq_Proofs.v
theories/Eq_Ex.v
theories/Thm_Eq.v
