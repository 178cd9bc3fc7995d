-Q theories Verif
theories/Num.v
theories/Res.v
theories/ListLib.v
theories/Arr.v
theories/FieldModel.v
theories/ScalarFieldModel.v
theories/VectorFieldModel.v
theories/FieldSpec.v
theories/FieldProofs.v
theories/RotateProofs.v
theories/FieldProofs2.v
theories/ScalarProofs.v
theories/Concrete.v
theories/FieldProofs3.v
theories/PropField.v
theories/PropScalar.v
theories/SortLib.v
theories/ProfileModel.v
theories/ProfileSpec.v
theories/ProfileProofs.v
theories/ProfileProofs2.v
theories/ProfileProofs3.v
theories/ProfileProofs4.v
theories/ProfileProofs5.v
theories/PropProfile.v
theories/SeqSpec.v
theories/PointsModel.v
theories/PointsSpec.v
theories/PointsProofs.v
theories/PointsProofs2.v
theories/PointsProofs3.v
theories/PointsProofs4.v
theories/PointsProofs5.v
theories/PointsProofs6.v
theories/PropPoints.v
theories/TemporalModel.v
theories/TemporalSpec.v
theories/TemporalProofs.v
theories/TemporalProofs2.v
theories/TemporalProofs3.v
theories/TemporalProofs4.v
theories/TemporalProofs5.v
theories/TemporalProofs6.v
theories/TemporalProofs7.v
theories/TemporalProofs8.v
theories/TemporalProofs9.v
theories/TemporalProofs10.v
theories/TemporalProofs11.v
theories/TemporalProofs12.v
theories/TemporalProofs13.v
theories/TemporalEx.v
theories/TemporalSpec2.v
theories/TemporalProofs14.v
theories/PropTemporal.v
theories/FilesModel.v
theories/FilesSpec.v
theories/FilesProofs.v
theories/FilesProofs2.v
theories/UtilsModel.v
theories/UtilsSpec.v
theories/UtilsProofs.v
theories/UtilsProofs2.v
theories/UtilsProofs3.v
theories/PropUtils.v
theories/ButtonModel.v
theories/ButtonSpec.v
theories/ButtonProofs.v
theories/PropButton.v
theories/VortexModel.v
theories/VortexSpec.v
theories/VortexProofs.v
theories/VortexProofs2.v
theories/VortexProofs3.v
theories/PropVortex.v
theories/PbiModel.v
theories/PbiSpec.v
theories/PbiProofs.v
theories/PbiProofs2.v
theories/PbiProofs3.v
theories/PropPbi.v
theories/CritModel.v
theories/CritSpec.v
theories/CritProofs.v
theories/CritProofs2.v
theories/CritProofs3.v
theories/CritProofs4.v
theories/CritProofs5.v
theories/CritProofs6.v
theories/CritProofs7.v
theories/CritProofs8.v
theories/CritProofs9.v
theories/CritProofs10.v
theories/CritProofs11.v
theories/CritProofs12.v
theories/PropCrit.v
theories/GradModel.v
theories/GradSpec.v
theories/GradProofs.v
theories/GradProofs2.v
theories/GradProofs3.v
theories/GradProofs4.v
theories/GradProofs5.v
theories/GradProofs6.v
theories/PropGrad.v
theories/CriterionModel.v
theories/CriterionSpec.v
theories/CriterionProofs.v
theories/CriterionProofs2.v
theories/CriterionProofs3.v
theories/CriterionProofs4.v
theories/CriterionProofs5.v
theories/CriterionProofs6.v
theories/PropCriterion.v
theories/PodModel.v
theories/PodSpec.v
theories/PodProofs.v
theories/PodProofs2.v
theories/PodProofs3.v
theories/PodProofs4.v
theories/PodProofs5.v
theories/PodProofs6.v
theories/PodProofs7.v
theories/PodProofs8.v
theories/PodProofs9.v
theories/PodSpec2.v
theories/PodProofs10.v
theories/PodProofs11.v
theories/PodProofs12.v
theories/PodEx.v
theories/PodEx2.v
theories/PropPod.v
theories/TurbModel.v
theories/TurbSpec.v
theories/TurbProofs.v
theories/TurbProofs2.v
theories/TurbProofs3.v
theories/TurbProofs4.v
theories/TurbProofs5.v
theories/TurbProofs6.v
theories/TurbEx.v
theories/PropTurb.v
theories/BlModel.v
theories/BlSpec.v
theories/BlProofs.v
theories/BlProofs2.v
theories/BlProofs3.v
theories/BlProofs4.v
theories/BlProofs5.v
theories/BlEx.v
theories/PropBl.v
theories/MirrorModel.v
theories/MirrorSpec.v
theories/MirrorProofs.v
theories/MirrorProofs2.v
theories/MirrorProofs3.v
theories/MirrorProofs4.v
theories/MirrorProofs5.v
theories/MirrorProofs6.v
theories/MirrorProofs7.v
theories/MirrorProofs8.v
theories/MirrorProofs9.v
theories/MirrorProofs10.v
theories/MirrorProofs11.v
theories/MirrorEx.v
theories/PropMirror.v
theories/AsciiModel.v
theories/AsciiSpec.v
theories/AsciiProofs.v
theories/AsciiProofs2.v
theories/AsciiProofs3.v
theories/AsciiProofs4.v
theories/AsciiEx.v
theories/PropAscii.v
theories/Prof2Model.v
theories/Prof2Spec.v
theories/Prof2Proofs.v
theories/Prof2Proofs2.v
theories/Prof2Proofs3.v
theories/Prof2Proofs4.v
theories/Prof2Proofs5.v
theories/Prof2Proofs6.v
theories/Prof2Proofs7.v
theories/Prof2Proofs8.v
theories/PropProf2.v
theories/Series2Model.v
theories/Series2Spec.v
theories/Series2Proofs.v
theories/Series2Proofs2.v
theories/Series2Proofs3.v
theories/Series2Proofs4.v
theories/Series2Proofs5.v
theories/Series2Proofs6.v
theories/PropSeries2.v
theories/VpropModel.v
theories/VpropSpec.v
theories/VpropProofs.v
theories/VpropProofs2.v
theories/VpropProofs3.v
theories/VpropProofs4.v
theories/VpropProofs5.v
theories/VpropProofs6.v
theories/PropVprop.v
theories/SpatialModel.v
theories/SpatialSpec.v
theories/SpatialProofs.v
theories/SpatialProofs2.v
theories/SpatialProofs3.v
theories/SpatialProofs4.v
theories/PropSpatial.v
theories/Vf2Model.v
theories/Vf2Spec.v
theories/Vf2Proofs.v
theories/Vf2Proofs2.v
theories/Vf2Proofs3.v
theories/Vf2Proofs4.v
theories/PropVf2.v
theories/Sf2Model.v
theories/Sf2Spec.v
theories/Sf2Proofs.v
theories/Sf2Proofs2.v
theories/Sf2Proofs3.v
theories/Sf2Proofs4.v
theories/Sf2Proofs5.v
theories/Sf2Proofs6.v
theories/PropSf2.v
theories/NormModel.v
theories/NormSpec.v
theories/NormProofs.v
theories/PropNorm.v
theories/UnitStrModel.v
theories/UnitStrSpec.v
theories/UnitStrProofs.v
theories/PropUnitStr.v
theories/StoreModel.v
theories/StoreSpec.v
theories/StoreProofs.v
theories/StoreProofs2.v
theories/StoreProofs3.v
theories/StoreProofs4.v
theories/PropStore.v
theories/CellModel.v
theories/CellSpec.v
theories/CellProofs.v
theories/CellProofs2.v
theories/CellProofs3.v
theories/CellProofs4.v
theories/CellProofs5.v
theories/CellProofs6.v
theories/PropCell.v
theories/MemoModel.v
theories/MemoSpec.v
theories/MemoProofs.v
theories/MemoProofs2.v
theories/PropMemo.v
theories/PotModel.v
theories/PotSpec.v
theories/PotProofs.v
theories/PotProofs2.v
theories/PotProofs3.v
theories/PotProofs4.v
theories/PotProofs5.v
theories/PotProofs6.v
theories/PropPot.v
theories/ProtModel.v
theories/ProtSpec.v
theories/ProtProofs.v
theories/ProtProofs2.v
theories/ProtProofs3.v
theories/PropProt.v
theories/StreamModel.v
theories/StreamSpec.v
theories/StreamProofs.v
theories/StreamProofs2.v
theories/StreamProofs3.v
theories/PropStream.v
theories/FtleModel.v
theories/FtleSpec.v
theories/FtleProofs.v
theories/FtleProofs2.v
theories/FtleProofs3.v
theories/FtleProofs4.v
theories/FtleProofs5.v
theories/PropFtle.v
theories/StabModel.v
theories/StabSpec.v
theories/StabProofs.v
theories/StabProofs2.v
theories/StabProofs3.v
theories/PropStab.v
theories/RecoModel.v
theories/RecoSpec.v
theories/RecoProofs.v
theories/RecoProofs2.v
theories/PropReco.v
theories/WallModel.v
theories/WallSpec.v
theories/WallProofs.v
theories/WallProofs2.v
theories/WallProofs3.v
theories/PropWall.v
theories/Pts3Model.v
theories/Pts3Spec.v
theories/Pts3Proofs.v
theories/Pts3Proofs2.v
theories/PropPts3.v
theories/ShearModel.v
theories/ShearSpec.v
theories/ShearProofs.v
theories/PropShear.v
theories/LayModel.v
theories/LaySpec.v
theories/LayProofs.v
theories/LayProofs2.v
theories/PropLay.v
theories/FsModel.v
theories/FsSpec.v
theories/FsProofs.v
theories/FsProofs2.v
theories/PropFs.v
theories/JacModel.v
theories/JacSpec.v
theories/JacProofs.v
theories/PropJac.v
theories/RepModel.v
theories/RepSpec.v
theories/RepProofs.v
theories/RepProofs2.v
theories/RepProofs3.v
theories/RepProofs4.v
theories/PropRep.v
theories/CloModel.v
theories/CloSpec.v
theories/CloProofs.v
theories/CloProofs2.v
theories/PropClo.v
theories/LayProofs3.v
theories/PropLay2.v
theories/EvoModel.v
theories/EvoSpec.v
theories/EvoProofs.v
theories/PropEvo.v
theories/VposModel.v
theories/VposSpec.v
theories/VposProofs.v
theories/PropVpos.v
theories/CohModel.v
theories/CohSpec.v
theories/CohProofs.v
theories/PropCoh.v
theories/ClauModel.v
theories/PropClau.v
theories/CompsModel.v
theories/PropComps.v
