-Q theories Verif
theories/Base.v
theories/Complex.v
theories/Model/Accuracy.v
theories/Model/BasisFunctions.v
theories/Model/Batch.v
theories/Model/CG.v
theories/Model/Calc.v
theories/Model/Composition.v
theories/Model/Compute.v
theories/Model/Cxx.v
theories/Model/Dataset.v
theories/Model/DatasetDFT.v
theories/Model/DatasetLines.v
theories/Model/Develop.v
theories/Model/Disorder.v
theories/Model/Divide.v
theories/Model/EOS.v
theories/Model/Elastic.v
theories/Model/Equilibrium.v
theories/Model/Eval.v
theories/Model/FC2.v
theories/Model/Features.v
theories/Model/Fit.v
theories/Model/ForceConstants.v
theories/Model/GaussParams.v
theories/Model/Grid.v
theories/Model/GridOptimal.v
theories/Model/HarmonicReal.v
theories/Model/Harmonics.v
theories/Model/Hull.v
theories/Model/Hybrid.v
theories/Model/HybridFile.v
theories/Model/HybridTypes.v
theories/Model/Index.v
theories/Model/MD.v
theories/Model/Mapping.v
theories/Model/Matcher.v
theories/Model/ModelParams.v
theories/Model/NearestDistance.v
theories/Model/Neighbor.v
theories/Model/Optimize.v
theories/Model/ParamFlags.v
theories/Model/Parser.v
theories/Model/Polyfit.v
theories/Model/Poscar.v
theories/Model/Potential.v
theories/Model/PotentialFile.v
theories/Model/Projector.v
theories/Model/Properties.v
theories/Model/Radial.v
theories/Model/Readers.v
theories/Model/Regress.v
theories/Model/SSCHA.v
theories/Model/SSCHARuns.v
theories/Model/SpinParams.v
theories/Model/Split.v
theories/Model/Structure.v
theories/Model/StructureUtils.v
theories/Model/SymStructures.v
theories/Model/TI.v
theories/Model/TIRun.v
theories/Model/Tables.v
theories/Model/Tensor.v
theories/Model/ThermoGrid.v
theories/Model/Transition.v
theories/Model/Weights.v
theories/Model/YamlFiles.v
theories/Num.v
theories/NumR.v
theories/Proofs/Accuracy.v
theories/Proofs/AccuracyDirection.v
theories/Proofs/AccuracyKeys.v
theories/Proofs/Batch.v
theories/Proofs/CG.v
theories/Proofs/CellRefine.v
theories/Proofs/Composition.v
theories/Proofs/ConvertUnit.v
theories/Proofs/Crystal.v
theories/Proofs/Curve.v
theories/Proofs/CurveReal.v
theories/Proofs/Cxx.v
theories/Proofs/Dataset.v
theories/Proofs/DatasetDFT.v
theories/Proofs/Deriv.v
theories/Proofs/Develop.v
theories/Proofs/DirDeriv.v
theories/Proofs/Disorder.v
theories/Proofs/Divide.v
theories/Proofs/DivideAlloy.v
theories/Proofs/Elastic.v
theories/Proofs/EnergyOnly.v
theories/Proofs/Equilibrium.v
theories/Proofs/Equivariance.v
theories/Proofs/Euler.v
theories/Proofs/EvalGtinv.v
theories/Proofs/EvalPair.v
theories/Proofs/FC2.v
theories/Proofs/FeatureVals.v
theories/Proofs/FileMarks.v
theories/Proofs/Fit.v
theories/Proofs/FitReal.v
theories/Proofs/ForceSum.v
theories/Proofs/FullLocal.v
theories/Proofs/FullSum.v
theories/Proofs/Gauss.v
theories/Proofs/GaussParams.v
theories/Proofs/GridOptimal.v
theories/Proofs/GtinvFeatures.v
theories/Proofs/GtinvTables.v
theories/Proofs/HalfFull.v
theories/Proofs/HarmonicArrays.v
theories/Proofs/HarmonicReal.v
theories/Proofs/Harmonics.v
theories/Proofs/Hull.v
theories/Proofs/Hybrid.v
theories/Proofs/HybridTypes.v
theories/Proofs/Index.v
theories/Proofs/Ladder.v
theories/Proofs/Legendre.v
theories/Proofs/MD.v
theories/Proofs/Mapping.v
theories/Proofs/Matcher.v
theories/Proofs/Mirrored.v
theories/Proofs/ModelParams.v
theories/Proofs/Motion.v
theories/Proofs/Multilinear.v
theories/Proofs/NeighborCell.v
theories/Proofs/NeighborList.v
theories/Proofs/Optimize.v
theories/Proofs/OrderParams.v
theories/Proofs/Parser.v
theories/Proofs/PathDeriv.v
theories/Proofs/PerAtom.v
theories/Proofs/PolyTerms.v
theories/Proofs/Polyfit.v
theories/Proofs/PolyfitModel.v
theories/Proofs/PolyfitSearch.v
theories/Proofs/Poscar.v
theories/Proofs/PoscarGroups.v
theories/Proofs/PoscarRead.v
theories/Proofs/Positions.v
theories/Proofs/Potential.v
theories/Proofs/PotentialFile.v
theories/Proofs/Projector.v
theories/Proofs/Properties.v
theories/Proofs/Radial.v
theories/Proofs/Readers.v
theories/Proofs/Regress.v
theories/Proofs/RegressFinal.v
theories/Proofs/RegressSeq.v
theories/Proofs/RegressWeights.v
theories/Proofs/Rotation.v
theories/Proofs/RotationInv.v
theories/Proofs/SSCHA.v
theories/Proofs/Scales.v
theories/Proofs/Select.v
theories/Proofs/SeqProps.v
theories/Proofs/SpinParams.v
theories/Proofs/Split.v
theories/Proofs/StressSym.v
theories/Proofs/Structure.v
theories/Proofs/StructureProps.v
theories/Proofs/StructureSpin.v
theories/Proofs/StructureSpin2.v
theories/Proofs/StructureUtils.v
theories/Proofs/Sums.v
theories/Proofs/Supercell.v
theories/Proofs/TI.v
theories/Proofs/TIRun.v
theories/Proofs/Tensor.v
theories/Proofs/ThermoGrid.v
theories/Proofs/Transition.v
theories/Proofs/Weights.v
theories/Proofs/WeightsProps.v
theories/Proofs/XtxBlocks.v
theories/Proofs/YamlFiles.v
theories/Proofs/YlmDir.v
theories/Props/C01.v
theories/Props/C02.v
theories/Props/C03.v
theories/Props/C04.v
theories/Props/C05.v
theories/Props/C06.v
theories/Props/C07.v
theories/Props/C08.v
theories/Props/C09.v
theories/Props/C10.v
theories/Props/C11.v
theories/Props/C12.v
theories/Props/C13.v
theories/Props/C14.v
theories/Props/C15.v
theories/Props/C16.v
theories/Props/C17.v
theories/Props/C18.v
theories/Props/C19.v
theories/Props/C20.v
theories/Props/C21.v
theories/Props/C22.v
theories/Props/C23.v
theories/Props/C24.v
theories/Props/C25.v
theories/Props/C26.v
theories/Props/C27.v
theories/Props/C28.v
theories/Props/C29.v
theories/Props/C30.v
theories/Props/C31.v
theories/Props/C32.v
theories/Props/C33.v
theories/Props/C34.v
theories/Props/C35.v
theories/Props/C36.v
theories/Props/C37.v
theories/Props/C38.v
theories/Props/C39.v
theories/Props/C40.v
theories/Props/C41.v
theories/Props/C42.v
theories/Props/C43.v
theories/Props/C44.v
theories/Props/C45.v
theories/Props/C46.v
theories/Props/C47.v
theories/Props/C48.v
theories/Props/C49.v
theories/Props/C50.v
theories/Props/C51.v
theories/Props/C52.v
theories/Props/C53.v
theories/Props/C54.v
theories/Props/C55.v
theories/Props/C56.v
theories/Props/C57.v
theories/Props/C58.v
theories/Props/C59.v
theories/Props/C60.v
theories/Props/C61.v
theories/Props/C62.v
theories/Props/C63.v
theories/Props/C64.v
theories/Props/C65.v
theories/Props/C66.v
theories/Props/C67.v
theories/Props/C68.v
theories/Props/C69.v
theories/Props/C70.v
theories/Props/C71.v
theories/Props/C72.v
theories/Props/C73.v
theories/Props/C74.v
theories/Props/C75.v
theories/Props/C76.v
theories/Props/C77.v
theories/Props/C78.v
theories/Props/C79.v
theories/Props/C80.v
theories/Props/C81.v
theories/Props/C82.v
theories/Props/C83.v
theories/Props/C84.v
theories/Props/C85.v
theories/Props/C86.v
theories/Props/C87.v
theories/Props/C88.v
theories/Props/C89.v
theories/Props/C90.v
theories/Props/C91.v
theories/Props/C92.v
theories/Props/C93.v
theories/Spec/Accuracy.v
theories/Spec/Crystal.v
theories/Spec/Dataset.v
theories/Spec/Deriv.v
theories/Spec/Elastic.v
theories/Spec/Equilibrium.v
theories/Spec/FileMarks.v
theories/Spec/Fit.v
theories/Spec/Gtinv.v
theories/Spec/Harmonic.v
theories/Spec/HarmonicReal.v
theories/Spec/Harmonics.v
theories/Spec/Index.v
theories/Spec/Lattice.v
theories/Spec/Load.v
theories/Spec/MD.v
theories/Spec/Matcher.v
theories/Spec/ModelParams.v
theories/Spec/Motion.v
theories/Spec/NearestDistance.v
theories/Spec/Neighbor.v
theories/Spec/Optimize.v
theories/Spec/Parser.v
theories/Spec/Poly.v
theories/Spec/Polyfit.v
theories/Spec/Poscar.v
theories/Spec/PotentialFile.v
theories/Spec/Readers.v
theories/Spec/Regress.v
theories/Spec/Rotation.v
theories/Spec/Structure.v
theories/Spec/SymStructures.v
theories/Spec/TI.v
theories/Spec/TIRun.v
theories/Spec/ThermoGrid.v
theories/Spec/Transition.v
