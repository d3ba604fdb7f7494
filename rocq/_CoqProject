-Q theories Verif
theories/Base.v
theories/Spec.v
theories/EventModel.v
theories/EventFacts.v
theories/DisjoinFacts.v
theories/History.v
theories/HistoryFacts.v
theories/PathFacts.v
theories/RankFacts.v
theories/EventProps.v
theories/Prop_Event.v
theories/CausetModel.v
theories/CausetFacts.v
theories/IntervalFacts.v
theories/SortFacts.v
theories/LayerFacts.v
theories/Prop_Causet.v
theories/Prop_CausetMore.v
theories/PyStr.v
theories/SpecBuild.v
theories/BuildModel.v
theories/BuildFacts.v
theories/FenceFacts.v
theories/SimplexFacts.v
theories/MatrixFacts.v
theories/MatrixLinkFacts.v
theories/CsvFacts.v
theories/MergeFacts.v
theories/Prop_Build.v
theories/Prop_BuildMore.v
theories/Prop_RoundTrip.v
theories/PathsModel.v
theories/PathsFacts.v
theories/Prop_Paths.v
theories/DistModel.v
theories/DistFacts.v
theories/Prop_Dist.v
theories/DistExact.v
theories/Prop_DistMore.v
theories/CalcModel.v
theories/Prop_Calc.v
theories/HarmonicFacts.v
theories/Prop_CalcMore.v
theories/SpacetimeModel.v
theories/SpacetimeFacts.v
theories/BlackHoleFacts.v
theories/TrigFacts.v
theories/Prop_Spacetime.v
theories/ShapeModel.v
theories/SpecShape.v
theories/Prop_Shape.v
theories/Prop_SpacetimeMore.v
theories/Prop_Tolerance.v
theories/EmbedModel.v
theories/EmbedFacts.v
theories/Prop_Embed.v
theories/Prop_EmbedMore.v
theories/SprinkledModel.v
theories/SprinkledFacts.v
theories/Prop_Sprinkled.v
theories/Prop_EventMore.v
theories/ColorModel.v
theories/Prop_Color.v
theories/PlotModel.v
theories/SpecPlot.v
theories/PlotFacts.v
theories/Prop_Plot.v
theories/Prop_PlotMore.v
theories/Prop_Dynamic.v
theories/Prop_ConesFirst.v
theories/SpecPerm.v
theories/PermModel.v
theories/PermFacts.v
theories/Prop_Perm.v
theories/OldPermModel.v
theories/OldPermFacts.v
theories/OldPermMore.v
theories/OldPermPlace.v
theories/Prop_OldPerm.v
theories/OldAntichainModel.v
theories/Prop_OldAntichain.v
theories/OutlineModel.v
theories/SpecOutline.v
theories/OutlineFacts.v
theories/PolygonFacts.v
theories/Prop_Outline.v
theories/SpecSurface.v
theories/SurfaceFacts.v
theories/Prop_Surface.v
theories/ConeModel.v
theories/SpecCone.v
theories/ConeFacts.v
theories/Prop_Cone.v
theories/EllipseFacts.v
theories/ChainFacts.v
theories/DeSitterFacts.v
theories/Prop_ConeMore.v
theories/Prop_ConeTime.v
theories/Prop_ConeBase.v
theories/BlackHoleConeModel.v
theories/SpecBlackHole.v
theories/BlackHoleConeFacts.v
theories/Prop_BlackHoleCone.v
theories/Prop_Newton.v
theories/LibHistory.v
theories/LibFacts.v
theories/Prop_Library.v
theories/SeedFacts.v
theories/SeedOrder.v
theories/Prop_Seed.v
theories/PrintModel.v
theories/Prop_Print.v
theories/Prop_Faithful.v
theories/GradedFacts.v
theories/Prop_Standard.v
theories/Prop_Symmetry.v
theories/Prop_Iso.v
theories/Prop_Dual.v
theories/Prop_Reload.v
theories/Prop_Mirror.v
theories/Prop_Steps.v
theories/Prop_MirrorHistory.v
