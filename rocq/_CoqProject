-Q theories Verif
theories/Base.v
theories/Alg.v
theories/Arr.v
theories/UtilsM.v
theories/Spec.v
theories/Alg_P.v
theories/Arr_P.v
theories/Arr2_P.v
theories/Utils_P.v
theories/Inst.v
theories/Ex.v
theories/Witness_Utils_P.v
theories/Props_Utils.v
theories/Act_P.v
theories/TensorM.v
theories/RL_P.v
theories/Jac_P.v
theories/Tensor_P.v
theories/Jacobian_P.v
theories/Chr_P.v
theories/Subs_P.v
theories/Witness_Tensor_P.v
theories/Props_Tensor.v
theories/WorldM.v
theories/SpecWorld.v
theories/World_P.v
theories/Metric_P.v
theories/Registry_P.v
theories/Geo_P.v
theories/History_P.v
theories/CalcM.v
theories/SpecCalc.v
theories/Keep_P.v
theories/Calc_P.v
theories/Typed_P.v
theories/Calc2_P.v
theories/Calc3_P.v
theories/Calc4_P.v
theories/Trace_P.v
theories/Run_P.v
theories/ExWorld.v
theories/Witness_World_P.v
theories/Witness_History_P.v
theories/Witness_Calc_P.v
theories/Props_World.v
theories/Props_History.v
theories/CurvCov_P.v
theories/SpecChange.v
theories/CurvCov2_P.v
theories/CurvCov3_P.v
theories/CurvCov4_P.v
theories/Witness_Change_P.v
theories/Props_Change.v
theories/OptionsM.v
theories/SpecOptions.v
theories/Options_P.v
theories/Witness_Options_P.v
theories/Props_Options.v
theories/InfoM.v
theories/SpecInfo.v
theories/Info_P.v
theories/Self_P.v
theories/Witness_Info_P.v
theories/Props_Info.v
theories/CurveM.v
theories/SpecCurve.v
theories/Curve_P.v
theories/Curve2_P.v
theories/Curve3_P.v
theories/Curve4_P.v
theories/InstCurve.v
theories/Witness_Curve_P.v
theories/Props_Curve.v
theories/SpecForm.v
theories/Along_P.v
theories/Label_P.v
theories/FormVal_P.v
theories/FormVal2_P.v
theories/FormRun_P.v
theories/FormRun2_P.v
theories/FormTop_P.v
theories/FormCov_P.v
theories/FormGeo_P.v
theories/ExForm.v
theories/Witness_Form_P.v
theories/Props_Form.v
theories/AliasM.v
theories/SpecAlias.v
theories/Alias_P.v
theories/Witness_Alias_P.v
theories/Props_Alias.v
theories/ShowM.v
theories/SpecShow.v
theories/Show_P.v
theories/Witness_Show_P.v
theories/Props_Show.v
theories/FileM.v
theories/SpecFile.v
theories/File_P.v
theories/Witness_File_P.v
theories/Props_File.v
theories/Session_P.v
theories/Session2_P.v
theories/Session3_P.v
theories/Session4_P.v
theories/Session5_P.v
theories/Session6_P.v
theories/SpecSession.v
theories/Session7_P.v
theories/Session8_P.v
theories/Witness_Session_P.v
theories/Props_Session.v
theories/CurvDim_P.v
theories/SpecDim.v
theories/CurvDim2_P.v
theories/GeodCons_P.v
theories/Witness_Dim_P.v
theories/Props_Deriv.v
theories/Props_Dim.v
theories/SpecDeriv.v
theories/RicciId_P.v
theories/Deriv_P.v
theories/RaiseCov_P.v
theories/Witness_Deriv_P.v
theories/LettersM.v
theories/Letters_P.v
theories/Witness_Letters_P.v
theories/Props_Letters.v
theories/Jacobi_P.v
theories/SpecVolume.v
theories/Voss_P.v
theories/VolRun_P.v
theories/InstExp.v
theories/Witness_Volume_P.v
theories/SpecConst.v
theories/CurvConst_P.v
theories/Witness_Const_P.v
theories/SpecRename.v
theories/Rename_P.v
theories/Witness_Rename_P.v
theories/SpecHead.v
theories/Head_P.v
theories/Witness_Head_P.v
theories/WrapM.v
theories/Wrap_P.v
theories/Wrap2_P.v
theories/Witness_Wrap_P.v
theories/SpecScale.v
theories/Scale_P.v
theories/Conf_P.v
theories/Witness_Scale_P.v
theories/CoordShowM.v
theories/CoordShow_P.v
theories/Witness_CoordShow_P.v
theories/SpecBlock.v
theories/Block_P.v
theories/Witness_Block_P.v
theories/SpecKilling.v
theories/Killing_P.v
theories/Witness_Killing_P.v
theories/SpecLeib.v
theories/Leib_P.v
theories/LeibRun_P.v
theories/Witness_Leib_P.v
theories/SpecDefault.v
theories/Default_P.v
theories/Diag_P.v
theories/DefaultRun_P.v
theories/InstSph.v
theories/Witness_Default_P.v
theories/SpecStart.v
theories/Start_P.v
theories/DefaultsM.v
theories/StartDefault_P.v
theories/Witness_Start_P.v
theories/Operands_P.v
theories/Witness_Operands_P.v
theories/Mixed_P.v
theories/Charge_P.v
theories/ChargeRun_P.v
theories/KillingGeod_P.v
theories/LeibDiv_P.v
theories/Current_P.v
theories/Witness_Charge_P.v
theories/PyExprM.v
theories/SpecPy.v
theories/PyExpr_P.v
theories/Witness_Py_P.v
theories/SpecMove.v
theories/Move_P.v
theories/MoveDefault_P.v
theories/Witness_Move_P.v
theories/SpecTrans.v
theories/AddTrans_P.v
theories/InstReal.v
theories/SpecReal.v
theories/Real_P.v
theories/MessageM.v
theories/SpecMessage.v
theories/Message_P.v
theories/ScalarMul_P.v
theories/Witness_Product_P.v
theories/SpecLight.v
theories/ScaleGeod_P.v
theories/Witness_Light_P.v
theories/SpecOrbit.v
theories/Orbit_P.v
theories/Witness_Orbit_P.v
theories/ConfRicci_P.v
theories/SpecPrefer.v
theories/Prefer_P.v
theories/Home_P.v
theories/Witness_Prefer_P.v
theories/SpecMissing.v
theories/Missing_P.v
theories/Witness_Missing_P.v
theories/SpecRequest.v
theories/Request_P.v
theories/Witness_Request_P.v
theories/ReportM.v
theories/SpecReport.v
theories/Report_P.v
theories/TransMessageM.v
theories/SpecTransMessage.v
theories/TransMessage_P.v
theories/Witness_TransMessage_P.v
theories/SpecRank.v
theories/Rank_P.v
theories/Witness_Rank_P.v
theories/Stored_P.v
theories/Witness_SessionRank_P.v
theories/Announce_P.v
theories/SpecAnnounce.v
theories/Witness_Announce_P.v
theories/Props_Calc.v
theories/CurvM.v
theories/SpecCurv.v
theories/LineM.v
theories/SpecLine.v
theories/Det_P.v
theories/Line_P.v
theories/Form_P.v
theories/Form2_P.v
theories/CurvRun_P.v
theories/Norm_P.v
theories/Norm2_P.v
theories/CurvRun2_P.v
theories/Weyl_P.v
theories/Weyl2_P.v
theories/Curv_P.v
theories/Curv2_P.v
theories/Witness_Curv_P.v
theories/SpecCov.v
theories/Cov_P.v
theories/Cov2_P.v
theories/Cov3_P.v
theories/CovId_P.v
theories/Cov4_P.v
theories/Witness_Cov_P.v
theories/Witness_Norm_P.v
theories/Props_Cov.v
theories/Props_Norm.v
theories/Witness_Line_P.v
theories/Props_Line.v
theories/Props_Curv.v
theories/GeodM.v
theories/SpecGeod.v
theories/Geod_P.v
theories/Geod2_P.v
theories/Geod3_P.v
theories/Geod4_P.v
theories/Geod5_P.v
theories/Witness_Geod_P.v
theories/Props_Geod.v
theories/ListM.v
theories/List_P.v
theories/InstNum.v
theories/Witness_List_P.v
theories/Props_List.v
theories/LexM.v
theories/ParseM.v
theories/InterpM.v
theories/SpecParse.v
theories/Lex_P.v
theories/Parse_P.v
theories/Doc_P.v
theories/Text_P.v
theories/Term_P.v
theories/Term2_P.v
theories/Read_P.v
theories/Witness_Parse_P.v
theories/Value_P.v
theories/Value2_P.v
theories/Props_Parse.v
theories/ExportM.v
theories/SpecExport.v
theories/Export_P.v
theories/Export2_P.v
theories/Export3_P.v
theories/Export4_P.v
theories/Export5_P.v
theories/Export6_P.v
theories/Export7_P.v
theories/Export8_P.v
theories/Export9_P.v
theories/ExExport.v
theories/Witness_Export_P.v
theories/Witness2_Export_P.v
theories/Props_Export.v
theories/SpecScalar.v
theories/Scalar_P.v
theories/Witness_Scalar_P.v
theories/Props_Scalar.v
theories/Props_Volume.v
theories/Props_Const.v
theories/Props_Rename.v
theories/Props_Head.v
theories/Props_Wrap.v
theories/Props_Scale.v
theories/Props_CoordShow.v
theories/Props_Block.v
theories/Props_Killing.v
theories/Props_Leib.v
theories/Props_Default.v
theories/Props_Start.v
theories/Props_Operands.v
theories/Props_Charge.v
theories/Props_Py.v
theories/Props_Move.v
theories/Props_Real.v
theories/Props_Message.v
theories/Props_Product.v
theories/Props_Light.v
theories/Props_Orbit.v
theories/Props_Conf.v
theories/Props_Prefer.v
theories/Props_Missing.v
theories/Props_Request.v
theories/Props_Report.v
theories/Props_TransMessage.v
theories/Props_Rank.v
theories/Props_SessionRank.v
theories/Props_Announce.v
