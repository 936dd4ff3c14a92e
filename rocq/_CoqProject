-Q theories Verif
theories/L_Dirichlet.v
theories/L_Erf.v
theories/L_Faddeeva.v
theories/L_Kepler.v
theories/L_List.v
theories/L_Ln.v
theories/L_Sum.v
theories/L_Whole.v
theories/M_Accept.v
theories/M_Again.v
theories/M_Amoeba.v
theories/M_Anomaly.v
theories/M_Attr.v
theories/M_Attribs.v
theories/M_Average.v
theories/M_BSpline.v
theories/M_Basis.v
theories/M_Birth.v
theories/M_Blobs.v
theories/M_Boost.v
theories/M_Bracket.v
theories/M_Chain.v
theories/M_Chord.v
theories/M_Combi.v
theories/M_CombiPrior.v
theories/M_Config.v
theories/M_Cyclic.v
theories/M_DynAttr.v
theories/M_Dynamic.v
theories/M_Dynamics.v
theories/M_Elem.v
theories/M_ErrXY.v
theories/M_Errdis.v
theories/M_Evidence.v
theories/M_Explore.v
theories/M_Fitter.v
theories/M_Fixed.v
theories/M_Football.v
theories/M_Galilean.v
theories/M_Gauss2d.v
theories/M_Grow.v
theories/M_History.v
theories/M_Hyper.v
theories/M_Image.v
theories/M_Isolate.v
theories/M_Kepler.v
theories/M_Kernel.v
theories/M_Knots.v
theories/M_Landscape.v
theories/M_Levmar.v
theories/M_Limits.v
theories/M_LinIdx.v
theories/M_LogFact.v
theories/M_Loop.v
theories/M_Meaning.v
theories/M_Memory.v
theories/M_Mixed.v
theories/M_ModelDis.v
theories/M_Monte.v
theories/M_Multi.v
theories/M_Nested.v
theories/M_Numer.v
theories/M_Order.v
theories/M_Phantom.v
theories/M_Picture.v
theories/M_Pipe.v
theories/M_PolySurface.v
theories/M_Prior.v
theories/M_Product.v
theories/M_Progress.v
theories/M_RepPrior.v
theories/M_Repeat.v
theories/M_Robust.v
theories/M_Salesman.v
theories/M_Sampler.v
theories/M_Scale.v
theories/M_Shape2d.v
theories/M_Sigma.v
theories/M_Sines.v
theories/M_SoftMax.v
theories/M_SplineUnit.v
theories/M_Splines.v
theories/M_SplinesDyn.v
theories/M_Start.v
theories/M_Steps.v
theories/M_Text.v
theories/M_Tools.v
theories/M_Tree.v
theories/M_Treebuild.v
theories/M_UnitBox.v
theories/M_Units.v
theories/M_User.v
theories/M_Voigt.v
theories/P_Amoeba.v
theories/P_Amoeba2.v
theories/P_Amoeba3.v
theories/P_Attr.v
theories/P_BSpline.v
theories/P_BSpline2.v
theories/P_Birth.v
theories/P_Blobs.v
theories/P_Blobs2.v
theories/P_Chain.v
theories/P_Combi.v
theories/P_Combi2.v
theories/P_Density.v
theories/P_Dynamic.v
theories/P_Elem.v
theories/P_Erralt.v
theories/P_Errdis.v
theories/P_Evidence.v
theories/P_Fitter.v
theories/P_Fitter2.v
theories/P_Fixed.v
theories/P_Galilean.v
theories/P_Kepler.v
theories/P_Kernel.v
theories/P_Kernel2d.v
theories/P_Kernels.v
theories/P_Kernint.v
theories/P_Kernlim.v
theories/P_Knots.v
theories/P_Mixed.v
theories/P_Nested.v
theories/P_Numer.v
theories/P_Order.v
theories/P_Phantom.v
theories/P_Prior.v
theories/P_PriorD.v
theories/P_Repeat.v
theories/P_Salesman.v
theories/P_Samples.v
theories/P_Stellar.v
theories/P_Tophat.v
theories/P_Tree.v
theories/P_Tree2.v
theories/P_Tree3.v
theories/P_Voigt.v
theories/S_Chain.v
theories/S_Combi.v
theories/S_Elem.v
theories/S_Errdis.v
theories/S_Evidence.v
theories/S_Fitter.v
theories/S_Kernel.v
theories/S_Order.v
theories/S_Phantom.v
theories/S_Tree.v
theories/T_Accept.v
theories/T_Again.v
theories/T_Amoeba.v
theories/T_Amoebar.v
theories/T_Anomaly.v
theories/T_Attribs.v
theories/T_Average.v
theories/T_BSpline.v
theories/T_Basis.v
theories/T_Birth.v
theories/T_Blobs.v
theories/T_Boost.v
theories/T_Bracket.v
theories/T_Chain.v
theories/T_Chord.v
theories/T_Combi.v
theories/T_CombiPrior.v
theories/T_Config.v
theories/T_Cyclic.v
theories/T_Density.v
theories/T_DynAttr.v
theories/T_Dynamic.v
theories/T_Dynamics.v
theories/T_Elem.v
theories/T_ErrXY.v
theories/T_Errdis.v
theories/T_Evidence.v
theories/T_Explore.v
theories/T_Fitter.v
theories/T_Football.v
theories/T_Galilean.v
theories/T_Gauss2d.v
theories/T_Grow.v
theories/T_History.v
theories/T_Hyper.v
theories/T_Image.v
theories/T_Isolate.v
theories/T_Keep.v
theories/T_Kepler.v
theories/T_Kernel.v
theories/T_Kernel2d.v
theories/T_Knots.v
theories/T_Landscape.v
theories/T_Levmar.v
theories/T_Limits.v
theories/T_LinIdx.v
theories/T_LogFact.v
theories/T_Loop.v
theories/T_Meaning.v
theories/T_Memory.v
theories/T_Mixed.v
theories/T_ModelDis.v
theories/T_Monte.v
theories/T_Multi.v
theories/T_Nested.v
theories/T_Numer.v
theories/T_Order.v
theories/T_Phantom.v
theories/T_Picture.v
theories/T_Pipe.v
theories/T_PolySurface.v
theories/T_Prior.v
theories/T_Product.v
theories/T_Progress.v
theories/T_Qr.v
theories/T_RepPrior.v
theories/T_Repeat.v
theories/T_Robust.v
theories/T_Sampler.v
theories/T_Scale.v
theories/T_Shape2d.v
theories/T_Simplex.v
theories/T_Sinc.v
theories/T_Sines.v
theories/T_SoftMax.v
theories/T_SplineUnit.v
theories/T_Splines.v
theories/T_SplinesDyn.v
theories/T_Start.v
theories/T_Stellar.v
theories/T_Steps.v
theories/T_Text.v
theories/T_Tools.v
theories/T_Tree.v
theories/T_Treebuild.v
theories/T_UnitBox.v
theories/T_Units.v
theories/T_User.v
theories/T_Voigt.v
