-Q theories Verif
theories/Base.v
theories/Spec.v
theories/ModelVec.v
theories/FactsVec.v
theories/PropsVec.v
theories/FactsAlg.v
theories/ModelMat.v
theories/FactsMat.v
theories/FactsRot.v
theories/FactsEig.v
theories/FactsMat2.v
theories/PropsMat.v
theories/ModelEP.v
theories/FactsEP.v
theories/FactsVel.v
theories/PropsEP.v
theories/SpecFrame.v
theories/ModelFrame.v
theories/FactsFrame.v
theories/PropsFrame.v
theories/Model2D.v
theories/Facts2D.v
theories/Props2D.v
theories/ModelAlias.v
theories/FactsAlias.v
theories/PropsAlias.v
theories/SpecGeom.v
theories/ModelElem.v
theories/FactsElem.v
theories/FactsTri.v
theories/FactsTri2.v
theories/FactsLine.v
theories/FactsCentre.v
theories/PropsElem.v
theories/SpecBox.v
theories/ModelBox.v
theories/FactsBox.v
theories/FactsObb.v
theories/FactsSat.v
theories/PropsBox.v
theories/SpecShape.v
theories/ModelShape.v
theories/FactsRound.v
theories/FactsCone.v
theories/FactsEllips.v
theories/FactsSolid.v
theories/PropsShape.v
theories/SpecMesh.v
theories/ModelPH.v
theories/FactsPH.v
theories/FactsPH2.v
theories/FactsPH3.v
theories/SpecInt.v
theories/FactsInt.v
theories/ModelMass.v
theories/FactsMass.v
theories/FactsPH4.v
theories/PropsPH.v
theories/FactsMisc.v
theories/FactsMisc2.v
theories/PropsMisc.v
theories/ModelMesh.v
theories/FactsMesh.v
theories/FactsMesh2.v
theories/FactsMesh3.v
theories/FactsMesh4.v
theories/FactsMesh5.v
theories/FactsMesh6.v
theories/SpecSweep.v
theories/FactsSweep.v
theories/FactsSweep2.v
theories/FactsSweep3.v
theories/FactsSweep4.v
theories/FactsSweep5.v
theories/FactsSweep6.v
theories/PropsMesh.v
theories/SpecData.v
theories/ModelData.v
theories/FactsData.v
theories/FactsData2.v
theories/PropsData.v
theories/ModelTree.v
theories/FactsTree.v
theories/SpecOctree.v
theories/ModelOctree.v
theories/FactsOctree.v
theories/FactsOctree2.v
theories/FactsOctree3.v
theories/FactsOctree4.v
theories/PropsTree.v
theories/SpecPCA.v
theories/ModelPCA.v
theories/FactsPCA.v
theories/FactsPCA2.v
theories/PropsPCA.v
theories/SpecColor.v
theories/ModelColor.v
theories/FactsColor.v
theories/FactsOptic.v
theories/PropsColor.v
theories/SpecTerra.v
theories/ModelTerra.v
theories/FactsTerra.v
theories/FactsTerra2.v
theories/FactsTerra3.v
theories/PropsTerra.v
theories/SpecCol.v
theories/ModelCol.v
theories/FactsCol.v
theories/FactsCol2.v
theories/FactsCol3.v
theories/FactsCol4.v
theories/FactsColBox.v
theories/FactsColBox2.v
theories/PropsCol.v
theories/SpecBall.v
theories/ModelBall.v
theories/FactsBall.v
theories/FactsBall2.v
theories/FactsBall3.v
theories/FactsBallQ.v
theories/FactsBallQ3.v
theories/PropsBall.v
theories/SpecHull.v
theories/ModelHull.v
theories/FactsHull.v
theories/FactsHull2.v
theories/FactsHull3.v
theories/FactsHull4.v
theories/FactsHull5.v
theories/FactsHull6.v
theories/FactsHull7.v
theories/FactsHull8.v
theories/PropsHull.v
theories/SpecClip.v
theories/ModelClip.v
theories/FactsClip.v
theories/FactsClip2.v
theories/FactsClip3.v
theories/FactsClip4.v
theories/FactsClip5.v
theories/PropsClip.v
theories/SpecMulti.v
theories/ModelMulti.v
theories/FactsMulti.v
theories/FactsMulti2.v
theories/FactsMulti3.v
theories/PropsMulti.v
theories/SpecGJK.v
theories/ModelGJK.v
theories/FactsGJK.v
theories/FactsGJK2.v
theories/FactsGJK3.v
theories/FactsGJK4.v
theories/FactsGJK5.v
theories/FactsGJK6.v
theories/PropsGJK.v
theories/SpecNurbs.v
theories/ModelNurbs.v
theories/FactsNurbs.v
theories/FactsNurbs2.v
theories/FactsNurbs3.v
theories/FactsNurbs4.v
theories/FactsNurbs5.v
theories/FactsNurbs6.v
theories/FactsNurbs7.v
theories/FactsNurbs8.v
theories/FactsNurbs9.v
theories/FactsNurbs10.v
theories/FactsNurbs11.v
theories/PropsNurbs.v
theories/SpecBrep.v
theories/ModelBrep.v
theories/FactsBrep.v
theories/FactsBrep2.v
theories/FactsBrep3.v
theories/FactsBrep4.v
theories/FactsBrep5.v
theories/FactsBrep6.v
theories/FactsBrep7.v
theories/FactsBrep8.v
theories/FactsBrep9.v
theories/FactsBrep10.v
theories/FactsBrep11.v
theories/FactsBrep12.v
theories/FactsBrep13.v
theories/SpecBrepFast.v
theories/ModelBrepFast.v
theories/FactsBrep14.v
theories/PropsBrep.v
theories/ModelPrism.v
theories/FactsPrism.v
theories/FactsPrism2.v
theories/FactsPrism3.v
theories/FactsPrism4.v
theories/FactsPrism5.v
theories/FactsPrism6.v
theories/FactsPrism7.v
theories/PropsPrism.v
theories/SpecFile.v
theories/ModelStl.v
theories/FactsStl.v
theories/FactsStl2.v
theories/FactsStl3.v
theories/FactsStl4.v
theories/SpecSingle.v
theories/FactsSingle.v
theories/PropsStl.v
theories/SpecBBox.v
theories/ModelBBox.v
theories/FactsBBox.v
theories/FactsBBox2.v
theories/FactsBBox3.v
theories/FactsBBox4.v
theories/FactsBBox5.v
theories/PropsBBox.v
theories/SpecProfile.v
theories/ModelProfile.v
theories/FactsSvd.v
theories/FactsProfile.v
theories/FactsProfile2.v
theories/FactsProfile3.v
theories/FactsProfile4.v
theories/PropsProfile.v
theories/SpecIcp.v
theories/ModelIcp.v
theories/FactsIcp.v
theories/FactsIcp2.v
theories/PropsIcp.v
theories/SpecQH.v
theories/ModelQH.v
theories/FactsQH.v
theories/FactsQH2.v
theories/FactsQH3.v
theories/FactsQH4.v
theories/FactsQH5.v
theories/FactsQH6.v
theories/FactsQH7.v
theories/FactsQH8.v
theories/FactsQH9.v
theories/PropsQH.v
theories/SpecDel.v
theories/ModelDel.v
theories/FactsDel.v
theories/FactsDel2.v
theories/FactsDel3.v
theories/FactsDel4.v
theories/FactsDel5.v
theories/FactsDel6.v
theories/FactsDel7.v
theories/FactsDel8.v
theories/FactsDel9.v
theories/FactsDel10.v
theories/FactsDel11.v
theories/PropsDel.v
theories/SpecVor.v
theories/ModelVor.v
theories/FactsVor.v
theories/FactsVor2.v
theories/FactsVor3.v
theories/FactsVor4.v
theories/PropsVor.v
theories/SpecIsec.v
theories/ModelIsec.v
theories/FactsIsec.v
theories/FactsIsec2.v
theories/FactsIsecQH.v
theories/PropsIsec.v
theories/ModelZtk.v
theories/SpecZtk.v
theories/FactsZtk.v
theories/FactsZtk2.v
theories/FactsZtk3.v
theories/PropsZtk.v
theories/FactsZtk4.v
theories/PropsZtk2.v
theories/SpecPly.v
theories/ModelPly.v
theories/FactsPly.v
theories/FactsPly2.v
theories/FactsPly3.v
theories/FactsPly4.v
theories/FactsPly5.v
theories/PropsPly.v
theories/SpecObj.v
theories/ModelObj.v
theories/FactsObj.v
theories/PropsObj.v
theories/SpecPcd.v
theories/ModelPcd.v
theories/FactsPcd.v
theories/FactsPcd2.v
theories/PropsPcd.v
theories/SpecLin.v
theories/ModelLin.v
theories/FactsLin.v
theories/PropsLin.v
theories/SpecMap.v
theories/ModelMap.v
theories/FactsMap.v
theories/FactsMap2.v
theories/PropsMap.v
theories/SpecFit.v
theories/ModelFit.v
theories/FactsFit.v
theories/FactsFit2.v
theories/PropsFit.v
theories/SpecDae.v
theories/ModelDae.v
theories/FactsDae.v
theories/FactsDae2.v
theories/FactsDae3.v
theories/PropsDae.v
theories/SpecPower.v
theories/ModelPower.v
theories/FactsPower.v
theories/PropsPower.v
theories/SpecNuf.v
theories/ModelNuf.v
theories/FactsNuf.v
theories/PropsNuf.v
theories/SpecDepth.v
theories/SpecScatter.v
theories/ModelDepth.v
theories/ModelDepthQH.v
theories/FactsDepth.v
theories/FactsDepth2.v
theories/FactsDepth3.v
theories/FactsDepth4.v
theories/FactsDepth5.v
theories/FactsDepth6.v
theories/FactsDepth7.v
theories/FactsDepth8.v
theories/FactsDepth9.v
theories/PropsDepth.v
theories/SpecMPR.v
theories/ModelMPR.v
theories/FactsMPR.v
theories/FactsMPR2.v
theories/FactsMPR3.v
theories/FactsMPR4.v
theories/PropsMPR.v
theories/SpecShapeList.v
theories/ModelShapeList.v
theories/FactsShapeList.v
theories/PropsShapeList.v
theories/ModelColPH.v
theories/FactsGJKHit.v
theories/PropsGJKHit.v
