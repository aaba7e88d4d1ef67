-Q theories Verif
theories/Num.v
theories/RSum.v
theories/SpecPoly.v
theories/ModelPolynomial.v
theories/ProofPolynomial.v
theories/ProofPolynomial2.v
theories/PropPolynomial.v
theories/ExtremaMath.v
theories/ProofExtrema.v
theories/PropExtrema.v
theories/ModelSegment.v
theories/SpecSegment.v
theories/ProofSegment.v
theories/ProofSegment2.v
theories/ProofSegment3.v
theories/PropSegment.v
theories/ModelVertex.v
theories/SpecVertex.v
theories/ProofVertex.v
theories/ProofVertex2.v
theories/ProofVertex3.v
theories/PropVertex.v
theories/ModelTrajectory.v
theories/SpecTrajectory.v
theories/ProofTrajectory.v
theories/ProofTrajectory2.v
theories/ProofTrajectory3.v
theories/ProofRoots.v
theories/ProofTrajectory4.v
theories/ProofFloat.v
theories/ProofTrajectory5.v
theories/PropTrajectory.v
theories/PropTrajectory2.v
theories/ModelLinear.v
theories/SpecLinear.v
theories/ProofMatrix.v
theories/ProofHermite.v
theories/ProofReorder.v
theories/ProofLinear.v
theories/ProofLinear2.v
theories/ProofLinear3.v
theories/ProofLinear4.v
theories/ProofLinear5.v
theories/ProofLinear6.v
theories/ProofLinear7.v
theories/PropLinear.v
theories/PropLinear2.v
theories/ModelNonlinear.v
theories/SpecNonlinear.v
theories/ProofNonlinear.v
theories/ProofNonlinear2.v
theories/ProofNonlinear3.v
theories/ProofNonlinear4.v
theories/ProofNonlinear5.v
theories/ProofNonlinear6.v
theories/ProofNonlinear7.v
theories/PropNonlinear.v
theories/PropNonlinear2.v
theories/PropNonlinear3.v
theories/ProofUnique.v
theories/PropLinear4.v
theories/PropNonlinear4.v
theories/PropNonlinear5.v
theories/ModelTiming.v
theories/SpecTiming.v
theories/ProofTiming.v
theories/PropTiming.v
theories/ModelMotion.v
theories/PropMotion.v
theories/ModelYaml.v
theories/ModelInput.v
theories/PropInput.v
theories/ModelIO.v
theories/ProofIO.v
theories/PropIO.v
theories/ProofNsec.v
theories/PropNsec.v
theories/ModelSampling.v
theories/PropSampling.v
theories/ModelMsgs.v
theories/PropMsgs.v
theories/ModelFeasibility.v
theories/SpecFeasibility.v
theories/ProofFeasibility.v
theories/ProofFeasibility2.v
theories/PropFeasibility.v
theories/PropFeasibility2.v
theories/ProofFeasibility3.v
theories/PropFeasibility3.v
theories/PropFeasibility4.v
theories/PropFeasibility5.v
theories/ModelNode.v
theories/PropNode.v
theories/PropNode2.v
theories/ModelRpoly.v
theories/SpecRoots.v
theories/ProofRpoly.v
theories/ProofRpoly2.v
theories/ProofRpoly3.v
theories/PropRpoly.v
theories/PropRpoly2.v
theories/PropRpoly3.v
theories/SpecRegistry.v
theories/PropTiming2.v
theories/PropLinear3.v
theories/PropCover.v
theories/PropConstraints.v
theories/ModelVis.v
theories/SpecVis.v
theories/PropVis.v
theories/PropVis2.v
theories/PropVis3.v
theories/PropVis4.v
theories/PropTighten.v
theories/PropVis5.v
theories/ModelPlanner.v
theories/SpecPlanner.v
theories/ProofPlanner.v
theories/ProofPlanner2.v
theories/PropPlanner.v
theories/ModelBench.v
theories/SpecBench.v
theories/ProofBench.v
theories/PropBench.v
theories/ProofBench2.v
theories/PropBench2.v
theories/PropBench3.v
theories/PropBench4.v
theories/PropBench5.v
theories/ModelExtra.v
theories/PropExtra.v
theories/PropExtra2.v
theories/PropExtra3.v
theories/PropExtra4.v
theories/ProofRound.v
theories/PropRound.v
theories/PropRound2.v
theories/ModelCov.v
theories/SpecCov.v
theories/PropCov.v
theories/ModelReport.v
theories/SpecReport.v
theories/PropReport.v
theories/PropRound3.v
theories/PropRound4.v
theories/PropRound5.v
theories/PropOffset.v
theories/PropTimes.v
