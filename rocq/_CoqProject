-Q theories Verif
theories/Py.v
theories/Vec.v
theories/VecDeriv.v
theories/Survey.v
theories/SpecSurvey.v
theories/SurveyFacts.v
theories/P_Survey.v
theories/DataM.v
theories/SpecData.v
theories/DataFacts.v
theories/P_Data.v
theories/Misfit.v
theories/SpecMisfit.v
theories/MisfitFacts.v
theories/P_Misfit.v
theories/ObjFun.v
theories/SpecObj.v
theories/ObjFunFacts.v
theories/P_ObjFun.v
theories/Optim.v
theories/SpecOptim.v
theories/OptimFacts.v
theories/ProjGrad.v
theories/ProjGradFacts.v
theories/P_Optim.v
theories/Bfgs.v
theories/SpecBfgs.v
theories/BfgsFacts.v
theories/P_Bfgs.v
theories/Gncg.v
theories/CgFacts.v
theories/SpecGncg.v
theories/GncgFacts.v
theories/NewtonFacts.v
theories/P_Gncg.v
theories/PropsM.v
theories/SpecProps.v
theories/PropsFacts.v
theories/P_Props.v
theories/Frechet.v
theories/MapsM.v
theories/SpecMaps.v
theories/MapsFacts.v
theories/P_Maps.v
theories/PropMaps.v
theories/SpecPropMaps.v
theories/PropMapsFacts.v
theories/MapsIdx.v
theories/SpecMapsIdx.v
theories/MapsIdxFacts.v
theories/P_PropMaps.v
theories/P_MapsIdx.v
theories/Validators.v
theories/SpecValid.v
theories/ValidFacts.v
theories/P_Valid.v
theories/FieldsM.v
theories/SpecFields.v
theories/FieldsFacts.v
theories/P_Fields.v
theories/Directives.v
theories/Irls.v
theories/SpecDirectives.v
theories/DirectivesFacts.v
theories/IrlsFacts.v
theories/P_Directives.v
theories/InvProb.v
theories/SpecInvProb.v
theories/InvProbFacts.v
theories/P_InvProb.v
theories/SensW.v
theories/SpecSensW.v
theories/SensWFacts.v
theories/P_SensW.v
theories/Meta.v
theories/SpecMeta.v
theories/MetaFacts.v
theories/MetaFacts2.v
theories/P_Meta.v
theories/Multi.v
theories/SpecMulti.v
theories/MultiFacts.v
theories/P_Multi.v
theories/Waveforms.v
theories/SpecWaveforms.v
theories/WaveformsFacts.v
theories/P_Waveforms.v
theories/Coords.v
theories/SpecCoords.v
theories/CoordsFacts.v
theories/CoordsFacts2.v
theories/P_Coords.v
theories/ModelBuilder.v
theories/SpecModelBuilder.v
theories/ModelBuilderFacts.v
theories/P_ModelBuilder.v
theories/Sparse.v
theories/SpecSparse.v
theories/SparseFacts.v
theories/P_Sparse.v
theories/Reg.v
theories/SpecReg.v
theories/RegFacts.v
theories/RegFacts2.v
theories/P_Reg.v
theories/Wls.v
theories/SpecWls.v
theories/WlsFacts.v
theories/P_Wls.v
theories/Probe.v
theories/SpecProbe.v
theories/ProbeFacts.v
theories/P_Probe.v
theories/PowerIt.v
theories/SpecPowerIt.v
theories/PowerItFacts.v
theories/P_PowerIt.v
theories/Scaling.v
theories/SpecScaling.v
theories/ScalingFacts.v
theories/P_Scaling.v
theories/LinSim.v
theories/SpecLinSim.v
theories/LinSimFacts.v
theories/P_LinSim.v
theories/DistW.v
theories/SpecDistW.v
theories/DistWFacts.v
theories/P_DistW.v
theories/EffMed.v
theories/SpecEffMed.v
theories/EffMedFacts.v
theories/EffMedFacts2.v
theories/P_EffMed.v
theories/Counter.v
theories/SpecCounter.v
theories/CounterFacts.v
theories/P_Counter.v
theories/Joint.v
theories/SpecJoint.v
theories/JointFacts.v
theories/JointFacts2.v
theories/JointFacts3.v
theories/JointFacts4.v
theories/JointFacts5.v
theories/P_Joint.v
theories/Param.v
theories/SpecParam.v
theories/ParamFacts.v
theories/ParamFacts2.v
theories/ParamFacts3.v
theories/ParamFacts4.v
theories/ParamFacts5.v
theories/P_Param.v
theories/Ray.v
theories/SpecRay.v
theories/RayFacts.v
theories/RayFacts2.v
theories/RayFacts3.v
theories/RayFacts4.v
theories/P_Ray.v
theories/Mass.v
theories/SpecMass.v
theories/MassFacts.v
theories/MassFacts2.v
theories/P_Mass.v
theories/Empir.v
theories/SpecEmpir.v
theories/EmpirFacts.v
theories/EmpirFacts2.v
theories/EmpirFacts3.v
theories/EmpirFacts4.v
theories/EmpirFacts5.v
theories/EmpirFacts6.v
theories/EmpirFacts7.v
theories/P_Empir.v
theories/Richards.v
theories/SpecRichards.v
theories/RichardsFacts.v
theories/RichardsFacts2.v
theories/RichardsFacts3.v
theories/RichardsFacts4.v
theories/RichardsFacts5.v
theories/RichardsFacts6.v
theories/P_Richards.v
theories/SolveDeriv.v
theories/Dc.v
theories/SpecDc.v
theories/DcFacts.v
theories/DcFacts2.v
theories/DcFacts3.v
theories/DcFacts4.v
theories/DcFacts5.v
theories/DcFacts6.v
theories/DcFacts7.v
theories/P_Dc.v
theories/P_DcMini.v
theories/Cplx.v
theories/Fdem.v
theories/SpecFdem.v
theories/CplxFacts.v
theories/FdemFacts.v
theories/FdemFacts2.v
theories/FdemFacts3.v
theories/FdemFacts4.v
theories/FdemFacts5.v
theories/FdemFacts6.v
theories/FdemFacts7.v
theories/FdemFacts8.v
theories/FdemFacts9.v
theories/FdemFacts10.v
theories/FdemFacts11.v
theories/FdemFacts12.v
theories/P_Fdem.v
theories/Tdem.v
theories/SpecTdem.v
theories/TdemFacts.v
theories/TdemFacts2.v
theories/TdemFacts3.v
theories/TdemFacts4.v
theories/TdemFacts5.v
theories/TdemFacts6.v
theories/TdemFacts7.v
theories/TdemFacts8.v
theories/TdemFacts9.v
theories/P_Tdem.v
theories/Pf.v
theories/SpecPf.v
theories/PfFacts.v
theories/PfFacts2.v
theories/PfFacts3.v
theories/PfFacts4.v
theories/PfFacts5.v
theories/PfFacts6.v
theories/PfFacts7.v
theories/P_Pf.v
theories/PfSim.v
theories/SpecPfSim.v
theories/PfSimFacts.v
theories/PfSimFacts2.v
theories/PfSimFacts3.v
theories/PfSimFacts4.v
theories/P_PfSim.v
theories/VecReg.v
theories/SpecVecReg.v
theories/VecRegFacts.v
theories/VecRegFacts2.v
theories/VecRegFacts3.v
theories/VecRegFacts4.v
theories/VecRegFacts5.v
theories/VecRegFacts6.v
theories/P_VecReg.v
theories/PfIO.v
theories/SpecPfIO.v
theories/PfIOFacts.v
theories/PfIOFacts2.v
theories/PfIOFacts3.v
theories/P_PfIO.v
theories/Abmn.v
theories/SpecAbmn.v
theories/AbmnFacts.v
theories/AbmnFacts2.v
theories/P_Abmn.v
theories/XyzIO.v
theories/SpecXyzIO.v
theories/XyzIOFacts.v
theories/XyzIOFacts2.v
theories/XyzIOFacts3.v
theories/P_XyzIO.v
theories/Lifecyc.v
theories/SpecLifecyc.v
theories/LifecycFacts.v
theories/P_Lifecyc.v
theories/Cx.v
theories/Mt1d.v
theories/SpecMt1d.v
theories/Mt1dFacts.v
theories/Mt1dFacts2.v
theories/Mt1dFacts3.v
theories/Mt1dFacts4.v
theories/Mt1dFacts5.v
theories/Mt1dFacts6.v
theories/P_Mt1d.v
theories/Geom.v
theories/SpecGeom.v
theories/GeomFacts.v
theories/GeomFacts2.v
theories/GeomFacts3.v
theories/GeomFacts4.v
theories/P_Geom.v
theories/Dc1d.v
theories/SpecDc1d.v
theories/Dc1dFacts.v
theories/Dc1dFacts2.v
theories/Dc1dFacts3.v
theories/Dc1dFacts4.v
theories/Dc1dFacts5.v
theories/Dc1dFacts6.v
theories/P_Dc1d.v
theories/Ip.v
theories/SpecIp.v
theories/IpFacts.v
theories/IpFacts2.v
theories/IpFacts3.v
theories/IpFacts4.v
theories/IpFacts5.v
theories/P_Ip.v
theories/Lines2d.v
theories/SpecLines2d.v
theories/Lines2dFacts.v
theories/Lines2dFacts2.v
theories/Lines2dFacts3.v
theories/Lines2dFacts4.v
theories/Lines2dFacts5.v
theories/P_Lines2d.v
theories/JointDir.v
theories/SpecJointDir.v
theories/JointDirFacts.v
theories/JointDirFacts2.v
theories/JointDirFacts3.v
theories/P_JointDir.v
theories/DcUbc.v
theories/SpecDcUbc.v
theories/DcUbcFacts.v
theories/DcUbcFacts2.v
theories/DcUbcFacts3.v
theories/DcUbcFacts4.v
theories/P_DcUbc.v
theories/DcXyz.v
theories/SpecDcXyz.v
theories/DcXyzFacts.v
theories/DcXyzFacts2.v
theories/DcXyzFacts3.v
theories/DcXyzFacts4.v
theories/P_DcXyz.v
theories/Drape.v
theories/SpecDrape.v
theories/DrapeFacts.v
theories/DrapeFacts2.v
theories/DrapeFacts3.v
theories/DrapeFacts4.v
theories/P_Drape.v
theories/Synth.v
theories/SpecSynth.v
theories/SynthFacts.v
theories/SynthFacts2.v
theories/SynthFacts3.v
theories/SynthFacts4.v
theories/SynthFacts5.v
theories/SynthFacts6.v
theories/P_Synth.v
theories/NsemRx.v
theories/SpecNsemRx.v
theories/NsemRxFacts.v
theories/NsemRxFacts2.v
theories/NsemRxFacts3.v
theories/NsemRxFacts4.v
theories/P_NsemRx.v
theories/Precond.v
theories/SpecPrecond.v
theories/PrecondFacts.v
theories/P_Precond.v
theories/Dc2d.v
theories/SpecDc2d.v
theories/Dc2dFacts.v
theories/Dc2dFacts2.v
theories/Dc2dFacts3.v
theories/Dc2dFacts4.v
theories/Dc2dFacts5.v
theories/P_Dc2d.v
theories/SelfPot.v
theories/SpecSelfPot.v
theories/SelfPotFacts.v
theories/SelfPotFacts2.v
theories/SelfPotFacts3.v
theories/SelfPotFacts4.v
theories/SelfPotFacts5.v
theories/SelfPotFacts6.v
theories/P_SelfPot.v
theories/Sip.v
theories/SpecSip.v
theories/SipFacts.v
theories/SipFacts2.v
theories/SipFacts3.v
theories/SipFacts4.v
theories/SipFacts5.v
theories/P_Sip.v
theories/MultiTarget.v
theories/SpecMultiTarget.v
theories/MultiTargetFacts.v
theories/MultiTargetFacts2.v
theories/MultiTargetFacts3.v
theories/P_MultiTarget.v
theories/Vrm.v
theories/SpecVrm.v
theories/VrmFacts.v
theories/VrmFacts2.v
theories/VrmFacts3.v
theories/P_Vrm.v
theories/SelfPotFacts7.v
theories/Tile.v
theories/SpecTile.v
theories/TileFacts.v
theories/TileFacts2.v
theories/P_Tile.v
theories/VrmFacts4.v
theories/Convolve.v
theories/SpecConvolve.v
theories/ConvolveFacts.v
theories/ConvolveFacts2.v
theories/P_Convolve.v
theories/PgiMref.v
theories/SpecPgiMref.v
theories/PgiMrefFacts.v
theories/PgiMrefFacts2.v
theories/P_PgiMref.v
