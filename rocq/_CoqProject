-Q theories Verif
theories/Prelude.v
theories/FEModel.v
theories/FESpec.v
theories/FEProofs.v
theories/FEProps.v
theories/AngModel.v
theories/AngSpec.v
theories/AngProofs.v
theories/AngProps.v
theories/GridModel.v
theories/GridSpec.v
theories/GridProofs.v
theories/GridProps.v
theories/CholModel.v
theories/CholSpec.v
theories/CholProofs.v
theories/CholProps.v
theories/JKModel.v
theories/JKSpec.v
theories/JKProofs.v
theories/JKProps.v
theories/GauntModel.v
theories/GauntSpec.v
theories/GauntProofs.v
theories/GauntProps.v
theories/TwoDModel.v
theories/TwoDSpec.v
theories/TwoDProofs.v
theories/TwoDProps.v
theories/ChkModel.v
theories/ChkSpec.v
theories/ChkProofs.v
theories/ChkProps.v
theories/ElModel.v
theories/ElSpec.v
theories/ElProofs.v
theories/ElProps.v
theories/ScfModel.v
theories/ScfSpec.v
theories/ScfProofs.v
theories/ScfProps.v
theories/ShapeTables.v
theories/ShapeModel.v
theories/ShapeSpec.v
theories/ShapeLip.v
theories/ShapeDer.v
theories/ShapePoly.v
theories/ShapeLeg.v
theories/ShapeOrth.v
theories/ShapeProofs.v
theories/ShapeProps.v
theories/QuadModel.v
theories/QuadSpec.v
theories/QuadProofs.v
theories/QuadInt.v
theories/QuadCross.v
theories/QuadWit.v
theories/QuadProps.v
theories/RadModel.v
theories/RadSpec.v
theories/RadProofs.v
theories/RadFun.v
theories/RadCache.v
theories/RadMat.v
theories/RadExact.v
theories/RadConf.v
theories/RadWit.v
theories/RadProps.v
theories/LegModel.v
theories/LegSpec.v
theories/LegMath.v
theories/LegProofs.v
theories/LegWit.v
theories/LegPos.v
theories/LegProps.v
theories/SadModel.v
theories/SadSpec.v
theories/SadProofs.v
theories/SadRoot.v
theories/SadField.v
theories/SadAtom.v
theories/SadDens.v
theories/SadWit.v
theories/SadProps.v
theories/TabData.v
theories/TabModel.v
theories/TabSpec.v
theories/TabProofs.v
theories/TabPoly.v
theories/TabGsz.v
theories/TabName.v
theories/TabWit.v
theories/TabProps.v
theories/PotModel.v
theories/PotSpec.v
theories/PotErf.v
theories/PotNuc.v
theories/PotGauss.v
theories/PotReg.v
theories/PotFind.v
theories/PotOrb.v
theories/PotWit.v
theories/PotProps.v
theories/ErfcModel.v
theories/ErfcSpec.v
theories/ErfcAnti.v
theories/ErfcProofs.v
theories/ErfcAngle.v
theories/ErfcShort.v
theories/ErfcSeries.v
theories/ErfcWit.v
theories/ErfcProps.v
theories/CmdModel.v
theories/CmdSpec.v
theories/CmdProofs.v
theories/CmdProps.v
theories/NaoModel.v
theories/NaoSpec.v
theories/NaoProofs.v
theories/NaoExtent.v
theories/NaoMake.v
theories/NaoWit.v
theories/NaoProps.v
theories/TeiModel.v
theories/TeiSpec.v
theories/TeiProofs.v
theories/TeiPar.v
theories/TeiWit.v
theories/TeiProps.v
theories/DiaModel.v
theories/DiaSpec.v
theories/DiaProofs.v
theories/DiaExch.v
theories/DiaMirror.v
theories/DiaLink.v
theories/DiaSym.v
theories/DiaWit.v
theories/DiaProps.v
theories/DftModel.v
theories/DftSpec.v
theories/DftProofs.v
theories/DftXc.v
theories/DftFock.v
theories/DftFockR.v
theories/DftAtom.v
theories/DftPar.v
theories/DftDrv.v
theories/DftGrad.v
theories/DftMore.v
theories/DftWit.v
theories/DftProps.v
theories/DftGen.v
theories/DdfModel.v
theories/DdfSpec.v
theories/DdfProofs.v
theories/DdfDrv.v
theories/DdfMore.v
theories/DdfProps.v
theories/PmModel.v
theories/PmSpec.v
theories/PmProofs.v
theories/PmDens.v
theories/PmXc.v
theories/PmFock.v
theories/PmBf.v
theories/PmDrv.v
theories/PmMore.v
theories/PmPhi.v
theories/PmProps.v
theories/SgModel.v
theories/SgSpec.v
theories/SgXc.v
theories/SgProofs.v
theories/SgFock.v
theories/SgDrv.v
theories/SgMore.v
theories/SgAtSpec.v
theories/SgAt.v
theories/SgWit.v
theories/SgProps.v
theories/SxModel.v
theories/SxSpec.v
theories/SxProofs.v
theories/SxMore.v
theories/SxAtom.v
theories/SxWit.v
theories/SxProps.v
theories/OeModel.v
theories/OeSpec.v
theories/OeBlocks.v
theories/OeAng.v
theories/OeDia.v
theories/OeCross.v
theories/OeAt.v
theories/OeLeg.v
theories/OeWit.v
theories/OeProps.v
theories/XsModel.v
theories/XsSpec.v
theories/XsProofs.v
theories/XsAtom.v
theories/XsWit.v
theories/XsProps.v
theories/CbModel.v
theories/CbSpec.v
theories/CbProofs.v
theories/CbProps.v
theories/TqModel.v
theories/TqSpec.v
theories/TqProofs.v
theories/TqDrv.v
theories/TqMore.v
theories/TqProps.v
theories/RsModel.v
theories/RsSpec.v
theories/RsProofs.v
theories/RsGrad.v
theories/RsMain.v
theories/RsRest.v
theories/RsLoad.v
theories/RsReload.v
theories/RsProps.v
theories/LbModel.v
theories/LbSpec.v
theories/LbProofs.v
theories/LbExact.v
theories/LbProps.v
theories/BsModel.v
theories/BsSpec.v
theories/BsProofs.v
theories/BsProps.v
theories/XfModel.v
theories/XfSpec.v
theories/XfProofs.v
theories/XfProps.v
theories/OcModel.v
theories/OcSpec.v
theories/OcProofs.v
theories/OcProps.v
theories/DlModel.v
theories/DlSpec.v
theories/DlProofs.v
theories/DlProps.v
theories/TmModel.v
theories/TmSpec.v
theories/TmProofs.v
theories/TmProps.v
theories/DgModel.v
theories/DgSpec.v
theories/DgProofs.v
theories/DgProps.v
theories/AijModel.v
theories/AijSpec.v
theories/AijProofs.v
theories/AijProps.v
theories/AoModel.v
theories/AoSpec.v
theories/AoProofs.v
theories/AoProps.v
